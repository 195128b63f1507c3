(** Model of the Lua language, first part: examples/oak-lua/src/lexer/mod.rs and parser/mod.rs.  The source is a
    [SourceText], the session is new.  [None] is a panic or that the fuel is used up. *)
From Verif Require Import Base Utf8 RopeModel CursorModel LexModel TreeModel VfsModel ParserModel LangModel IniModel.

(** lexer/token_type.rs:78-154, and parser/element_type.rs:8-83 with the same numbers *)
Definition UAnd := 1. Definition UBreak := 2. Definition UDo := 3. Definition UElse := 4. Definition UElseif := 5.
Definition UEnd := 6. Definition UFalse := 7. Definition UFor := 8. Definition UFunction := 9. Definition UGoto := 10.
Definition UIf := 11. Definition UIn := 12. Definition ULocal := 13. Definition UNil := 14. Definition UNot := 15.
Definition UOr := 16. Definition URepeat := 17. Definition UReturn := 18. Definition UThen := 19.
Definition UTrue := 20. Definition UUntil := 21. Definition UWhile := 22. Definition UIdentifier := 23.
Definition UNumber := 24. Definition UString := 25. Definition UPlus := 26. Definition UMinus := 27.
Definition UStar := 28. Definition USlash := 29. Definition UPercent := 30. Definition UCaret := 31.
Definition UHash := 32. Definition UAmpersand := 33. Definition UTilde := 34. Definition UPipe := 35.
Definition ULtLt := 36. Definition UGtGt := 37. Definition USlashSlash := 38. Definition UEqEq := 39.
Definition UTildeEq := 40. Definition ULtEq := 41. Definition UGtEq := 42. Definition ULt := 43. Definition UGt := 44.
Definition UEq := 45. Definition ULeftParen := 46. Definition URightParen := 47. Definition ULeftBrace := 48.
Definition URightBrace := 49. Definition ULeftBracket := 50. Definition URightBracket := 51.
Definition UColonColon := 52. Definition USemicolon := 53. Definition UColon := 54. Definition UComma := 55.
Definition UDot := 56. Definition UDotDot := 57. Definition UDotDotDot := 58. Definition UWhitespace := 59.
Definition UNewline := 60. Definition UComment := 61. Definition UEof := 62. Definition UError := 63.
(** parser/element_type.rs:85-125, those in use *)
Definition USourceFile := 64. Definition UFunctionDecl := 65. Definition ULocalStmt := 69.
Definition UAssignmentStmt := 70. Definition UExprStmt := 71. Definition UIfStmt := 72. Definition UWhileStmt := 73.
Definition UForStmt := 74. Definition URepeatStmt := 75. Definition UDoStmt := 76. Definition UBreakStmt := 77.
Definition UReturnStmt := 78. Definition UGotoStmt := 79. Definition ULabelStmt := 80.
Definition UIdentifierExpr := 81. Definition ULiteralExpr := 82. Definition UParenthesizedExpr := 85.
Definition UBinaryExpr := 86. Definition UUnaryExpr := 87. Definition UCallExpr := 88. Definition UMemberExpr := 89.
Definition UIndexExpr := 90. Definition UTableExpr := 91. Definition UFunctionExpr := 92.
Definition UVarargExpr := 93. Definition UTableField := 94. Definition UFunctionName := 100.

Definition lua_blank (c : Z) : bool := ((c =? 32) || (c =? 9))%Z.
Definition lua_eol (c : Z) : bool := ((c =? 10) || (c =? 13))%Z.
Definition lua_quote (c : Z) : bool := ((c =? 34) || (c =? 39))%Z.
Definition lua_start (c : Z) : bool := ascii_alpha_c c || (c =? 95)%Z.
Definition lua_word (c : Z) : bool := ascii_alpha_c c || ascii_digit_c c || (c =? 95)%Z.
Definition lua_hex (c : Z) : bool := ascii_digit_c c || ((97 <=? c) && (c <=? 102) || (65 <=? c) && (c <=? 70))%Z.
Definition lua_opt (p : Z -> bool) (o : option Z) : bool := match o with Some c => p c | None => false end.

Section Lexer.
  Variable text : str.
  Let src := flat_source text.

  (** [state.peek()]: the same as [state.current()], oak-core/src/lexer/mod.rs:395-397 and 704-706 *)
  Definition lua_peek (l : lexer) : option Z * lexer := lx_current src l.
  (** [state.add_token(kind, start_pos, state.get_position()); true] *)
  Definition lua_token (kind : nat) (l l' : lexer) : option (bool * lexer) := Some (true, add_token l' kind (lx_pos l) (lx_pos l')).
  (** [state.advance(1); state.advance(1)] *)
  Definition lua_two (l : lexer) : lexer := lx_advance src (lx_advance src l 1) 1.

  (** lexer/mod.rs:72-86 [skip_whitespace] *)
  Definition lua_whitespace (l : lexer) : option (bool * lexer) :=
    option_map (token_if UWhitespace l) (lx_take_while src (scan_fuel src) lua_blank l).

  (** lexer/mod.rs:89-108 [lex_newline] *)
  Definition lua_newline (l : lexer) : option (bool * lexer) :=
    let '(ch, l1) := lua_peek l in
    if is_char 10 ch then lua_token UNewline l (lx_advance src l1 1)
    else if is_char 13 ch then
      let '(next, l2) := lua_peek (lx_advance src l1 1) in
      lua_token UNewline l (if is_char 10 next then lx_advance src l2 1 else l2)
    else Some (false, l1).

  (** lexer/mod.rs:126-135 and 210-219: to the end of a long bracket *)
  Fixpoint lua_long (fuel : nat) (l : lexer) : option lexer :=
    match fuel with
    | O => None
    | S f =>
        match lx_current src l with
        | (None, l1) => Some l1
        | (Some ch, l1) =>
            let '(next, l2) := lua_peek l1 in
            if (ch =? 93)%Z && is_char 93 next then Some (lua_two l2) else lua_long f (lx_advance src l2 (char_len ch))
        end
    end.
  (** lexer/mod.rs:139-144, 149-154: to the end of the line *)
  Definition lua_line (l : lexer) : option lexer := lx_take_while src (scan_fuel src) (fun c => negb (lua_eol c)) l.

  (** lexer/mod.rs:111-167 [lex_comment] *)
  Definition lua_comment (l : lexer) : option (bool * lexer) :=
    let '(ch, l1) := lx_current src l in
    if is_char 45 ch then
      let '(next, l2) := lua_peek l1 in
      if is_char 45 next then
        let '(open, l3) := lx_current src (lua_two l2) in
        let '(open2, l4) := lua_peek l3 in
        match (if is_char 91 open && is_char 91 open2 then lua_long (scan_fuel src) (lua_two l4) else lua_line l4) with
        | None => None
        | Some l5 => lua_token UComment l l5
        end
      else Some (false, l2)
    else Some (false, l1).

  (** lexer/mod.rs:177-198: the inside of a quoted string *)
  Fixpoint lua_quoted (quote : Z) (fuel : nat) (escaped : bool) (l : lexer) : option lexer :=
    match fuel with
    | O => None
    | S f =>
        match lx_current src l with
        | (None, l1) => Some l1
        | (Some ch, l1) =>
            if escaped then lua_quoted quote f false (lx_advance src l1 (char_len ch))
            else if (ch =? 92)%Z then lua_quoted quote f true (lx_advance src l1 1)
            else if (ch =? quote)%Z then Some (lx_advance src l1 1)
            else if lua_eol ch then Some l1
            else lua_quoted quote f false (lx_advance src l1 (char_len ch))
        end
    end.
  (** lexer/mod.rs:170-235 [lex_string] *)
  Definition lua_string (l : lexer) : option (bool * lexer) :=
    match lx_current src l with
    | (None, l1) => Some (false, l1)
    | (Some quote, l1) =>
        if lua_quote quote then
          match lua_quoted quote (scan_fuel src) false (lx_advance src l1 1) with
          | None => None
          | Some l2 => lua_token UString l l2
          end
        else if (quote =? 91)%Z then
          let '(next, l2) := lua_peek l1 in
          if is_char 91 next then
            match lua_long (scan_fuel src) (lua_two l2) with
            | None => None
            | Some l3 => lua_token UString l l3
            end
          else Some (false, l2)
        else Some (false, l1)
    end.

  (** lexer/mod.rs:262-287: the loop over a number *)
  Fixpoint lua_number_loop (fuel : nat) (dot exp : bool) (l : lexer) : option lexer :=
    match fuel with
    | O => None
    | S f =>
        match lx_current src l with
        | (None, l1) => Some l1
        | (Some ch, l1) =>
            if ascii_digit_c ch then lua_number_loop f dot exp (lx_advance src l1 1)
            else if (ch =? 46)%Z && negb dot && negb exp then lua_number_loop f true exp (lx_advance src l1 1)
            else if ((ch =? 101)%Z || (ch =? 69)%Z) && negb exp then
              let '(sign, l2) := lx_current src (lx_advance src l1 1) in
              lua_number_loop f dot true (if is_char 43 sign || is_char 45 sign then lx_advance src l2 1 else l2)
            else Some l1
        end
    end.
  (** lexer/mod.rs:238-299 [lex_number].  The loop over hexadecimal digits advances by one byte, which is their length. *)
  Definition lua_number (l : lexer) : option (bool * lexer) :=
    let '(ch, l1) := lx_current src l in
    if lua_opt ascii_digit_c ch then
      let '(next, l2) := lua_peek l1 in
      match (if is_char 48 ch && (is_char 120 next || is_char 88 next)
             then lx_take_while src (scan_fuel src) lua_hex (lua_two l2)
             else lua_number_loop (scan_fuel src) false false l2) with
      | None => None
      | Some l3 => lua_token UNumber l l3
      end
    else Some (false, l1).

  (** lexer/mod.rs:322-348 [keyword_or_identifier] *)
  Definition lua_keywords : list (str * nat) :=
    [(lit "and", UAnd); (lit "break", UBreak); (lit "do", UDo); (lit "else", UElse); (lit "elseif", UElseif); (lit "end", UEnd);
     (lit "false", UFalse); (lit "for", UFor); (lit "function", UFunction); (lit "goto", UGoto); (lit "if", UIf); (lit "in", UIn);
     (lit "local", ULocal); (lit "nil", UNil); (lit "not", UNot); (lit "or", UOr); (lit "repeat", URepeat); (lit "return", UReturn);
     (lit "then", UThen); (lit "true", UTrue); (lit "until", UUntil); (lit "while", UWhile)].
  Definition lua_word_kind (t : str) : nat :=
    match find (fun p => str_eqb t (fst p)) lua_keywords with Some p => snd p | None => UIdentifier end.
  (** lexer/mod.rs:302-319 [lex_identifier_or_keyword] *)
  Definition lua_identifier (l : lexer) : option (bool * lexer) :=
    let '(ch, l1) := lx_current src l in
    if lua_opt lua_start ch then
      match lx_take_while src (scan_fuel src) lua_word l1 with
      | None => None
      | Some l2 => lua_token (lua_word_kind (flat_text_in text (lx_pos l) (lx_pos l2))) l l2
      end
    else Some (false, l1).

  (** lexer/mod.rs:355-505: the marks of one character, and those that may be followed by a second *)
  Definition lua_mark (ch : Z) : option (nat * list (Z * nat)) :=
    (if ch =? 61 then Some (UEq, [(61, UEqEq)]) else if ch =? 126 then Some (UTilde, [(61, UTildeEq)])
     else if ch =? 60 then Some (ULt, [(61, ULtEq); (60, ULtLt)]) else if ch =? 62 then Some (UGt, [(61, UGtEq); (62, UGtGt)])
     else if ch =? 46 then Some (UDot, [(46, UDotDot)]) else if ch =? 58 then Some (UColon, [(58, UColonColon)])
     else if ch =? 47 then Some (USlash, [(47, USlashSlash)]) else if ch =? 43 then Some (UPlus, [])
     else if ch =? 45 then Some (UMinus, []) else if ch =? 42 then Some (UStar, []) else if ch =? 37 then Some (UPercent, [])
     else if ch =? 94 then Some (UCaret, []) else if ch =? 35 then Some (UHash, []) else if ch =? 38 then Some (UAmpersand, [])
     else if ch =? 124 then Some (UPipe, []) else if ch =? 40 then Some (ULeftParen, []) else if ch =? 41 then Some (URightParen, [])
     else if ch =? 123 then Some (ULeftBrace, []) else if ch =? 125 then Some (URightBrace, []) else if ch =? 91 then Some (ULeftBracket, [])
     else if ch =? 93 then Some (URightBracket, []) else if ch =? 59 then Some (USemicolon, []) else if ch =? 44 then Some (UComma, [])
     else None)%Z.
  (** lexer/mod.rs:351-513 [lex_operator_or_delimiter] *)
  Definition lua_operator (l : lexer) : option (bool * lexer) :=
    match lua_peek l with
    | (None, l1) => Some (false, l1)
    | (Some ch, l1) =>
        match lua_mark ch with
        | None => Some (false, l1)
        | Some (kind, longer) =>
            let '(next, l2) := lua_peek (lx_advance src l1 1) in
            match find (fun p => is_char (fst p) next) longer with
            | None => lua_token kind l l2
            | Some (_, kind2) =>
                let '(third, l3) := lua_peek (lx_advance src l2 1) in
                if (kind2 =? UDotDot) && is_char 46 third then lua_token UDotDotDot l (lx_advance src l3 1) else lua_token kind2 l l3
            end
        end
    end.

  (** lexer/mod.rs:25-69 [run] *)
  Definition lua_rules : list (lexer -> option (bool * lexer)) :=
    [lua_whitespace; lua_newline; lua_comment; lua_string; lua_number; lua_identifier; lua_operator].
  Definition lua_round (l : lexer) : option lexer :=
    match try_rules lua_rules l with
    | None => None
    | Some (true, l') => Some l'
    | Some (false, l1) =>
        Some (advance_if_dead_lock src (lx_pos l)
          match lua_peek l1 with
          | (Some ch, l2) => let l3 := lx_advance src l2 (char_len ch) in add_token l3 UError (lx_pos l1) (lx_pos l3)
          | (None, l2) => l2
          end)
    end.
  (** lexer/mod.rs:517-524 [lex] *)
  Definition lua_lex : option (list token) := lex_all src lua_round UEof.
End Lexer.

(** ** Parser *)

(** lexer/token_type.rs:11-13 *)
Definition lua_ign (k : nat) : bool := existsb (Nat.eqb k) [UWhitespace; UNewline; UComment].

(** What a parsing function does to the state.  All of them return [Ok]. *)
Definition act := pstate -> option pstate.
Definition nop : act := fun s => Some s.
Definition seq (a b : act) : act := fun s => match a s with None => None | Some s1 => b s1 end.
Infix ";;" := seq (at level 61, right associativity).
Definition lua_bump : act := fun s => Some (bump lua_ign s).
(** [state.expect(k).ok()] *)
Definition want (k : nat) : act := fun s => Some (snd (expect lua_ign k s)).
(** [state.eat(k);] *)
Definition may (k : nat) : act := fun s => Some (snd (eat lua_ign k s)).
(** [if state.eat(k) { a } else { b }] *)
Definition if_eat (k : nat) (a b : act) : act := fun s => let '(ok, s1) := eat lua_ign k s in if ok then a s1 else b s1.
(** [if state.at(k1) || … { a } else { b }] *)
Definition if_at (ks : list nat) (a b : act) : act := fun s => if existsb (at_kind s) ks then a s else b s.
(** [while state.eat(k) { a }] *)
Fixpoint while_eat (fuel : nat) (k : nat) (a : act) : act := fun s =>
  match fuel with O => None | S f => if_eat k (a ;; while_eat f k a) nop s end.
(** [while state.not_at_end() && !state.at(k1) && … { a }] *)
Fixpoint while_not (fuel : nat) (ks : list nat) (a : act) : act := fun s =>
  match fuel with
  | O => None
  | S f => if ps_not_at_end s && negb (existsb (at_kind s) ks) then (a ;; while_not f ks a) s else Some s
  end.
(** [let cp = …; a; state.finish_at(cp, kind)] *)
Definition node_at (cp : pstate -> nat * nat) (kind : nat) (a : act) : pstate -> option (item * pstate) := fun s =>
  match a s with None => None | Some s1 => finish_at s1 (cp s) kind end.
Definition dropped (a : pstate -> option (item * pstate)) : act := fun s => option_map snd (a s).
Definition node (kind : nat) (a : act) : act := dropped (node_at checkpoint kind a).
(** [state.record_expected(…)], oak-core parser/state.rs:291-295 *)
Definition expected (s : pstate) : pstate := push_error s 0 (current_offset s).

Section Open.
  (** [PrattParser::parse(state, min, self)] with its node dropped, and [self.parse_block(state)] *)
  Variable expr : nat -> act.
  Variable block : act.
  (** fuel for the [while] loops *)
  Variable n : nat.

  (** [PrattParser::parse(state, 0, self); while state.eat(Comma) { PrattParser::parse(state, 0, self); }] *)
  Definition exprs : act := expr 0 ;; while_eat n UComma (expr 0).

  (** parser/mod.rs:196-201: the parameters after the first *)
  Fixpoint params (fuel : nat) : act := fun s =>
    match fuel with O => None | S f => if_eat UComma (if_eat UDotDotDot nop (want UIdentifier ;; params f)) nop s end.
  (** parser/mod.rs:187-208 [parse_function_body] *)
  Definition body : act :=
    want ULeftParen ;;
    if_at [URightParen] nop (if_eat UDotDotDot nop (want UIdentifier ;; params n)) ;;
    want URightParen ;; block ;; want UEnd.

  (** parser/mod.rs:73-96 [parse_local_statement] *)
  Definition local : act :=
    node ULocalStmt (want ULocal ;;
      if_eat UFunction (want UIdentifier ;; body)
        (want UIdentifier ;; while_eat n UComma (want UIdentifier) ;; if_eat UEq exprs nop) ;;
      may USemicolon).
  (** parser/mod.rs:98-116 [parse_if_statement] *)
  Definition if_ : act :=
    node UIfStmt (want UIf ;; expr 0 ;; want UThen ;; block ;;
      while_eat n UElseif (expr 0 ;; want UThen ;; block) ;; if_eat UElse block nop ;; want UEnd).
  (** parser/mod.rs:118-128 [parse_while_statement] *)
  Definition while_ : act := node UWhileStmt (want UWhile ;; expr 0 ;; want UDo ;; block ;; want UEnd).
  (** parser/mod.rs:130-158 [parse_for_statement] *)
  Definition for_ : act :=
    node UForStmt (want UFor ;; want UIdentifier ;;
      if_eat UEq (expr 0 ;; want UComma ;; expr 0 ;; if_eat UComma (expr 0) nop)
        (while_eat n UComma (want UIdentifier) ;; want UIn ;; exprs) ;;
      want UDo ;; block ;; want UEnd).
  (** parser/mod.rs:160-169 [parse_repeat_statement] *)
  Definition repeat_ : act := node URepeatStmt (want URepeat ;; block ;; want UUntil ;; expr 0).
  (** parser/mod.rs:171-185 [parse_function_declaration] *)
  Definition function : act :=
    node UFunctionDecl (want UFunction ;; want UIdentifier ;; while_eat n UDot (want UIdentifier) ;;
      if_eat UColon (want UIdentifier) nop ;; body).
  (** parser/mod.rs:210-223 [parse_return_statement] *)
  Definition return_ : act :=
    node UReturnStmt (want UReturn ;; if_at [UEnd; UElse; UElseif; UUntil; USemicolon] nop exprs ;; may USemicolon).
  (** parser/mod.rs:225-231 [parse_break_statement], 233-241 [parse_do_statement], 243-250 [parse_goto_statement],
      252-260 [parse_label_statement] *)
  Definition break : act := node UBreakStmt (want UBreak).
  Definition do_ : act := node UDoStmt (want UDo ;; block ;; want UEnd).
  Definition goto : act := node UGotoStmt (want UGoto ;; want UIdentifier).
  Definition label : act := node ULabelStmt (want UColonColon ;; want UIdentifier ;; want UColonColon).

  (** parser/mod.rs:50-68: an expression or an assignment *)
  Definition plain : act := fun s =>
    match expr 0 s with
    | None => None
    | Some s1 =>
        match (if at_kind s1 UComma || at_kind s1 UEq
               then dropped (node_at (fun _ => checkpoint s) UAssignmentStmt
                      (while_eat n UComma (expr 0) ;; want UEq ;; exprs)) s1
               else dropped (node_at (fun _ => checkpoint s) UExprStmt nop) s1) with
        | None => None
        | Some s2 => may USemicolon s2
        end
    end.
  (** parser/mod.rs:36-71 [parse_statement] *)
  Definition statement : act := fun s =>
    let k := match peek_kind s with Some k => k | None => UEof end in
    (if k =? ULocal then local else if k =? UIf then if_ else if k =? UWhile then while_ else if k =? UFor then for_
     else if k =? URepeat then repeat_ else if k =? UFunction then function else if k =? UReturn then return_
     else if k =? UBreak then break else if k =? UDo then do_ else if k =? UGoto then goto
     else if k =? UColonColon then label else plain) s.

  (** parser/mod.rs:275-290: one field of a table.  [bump] after [at(Identifier)] *)
  Definition field : act := fun s =>
    if_eat ULeftBracket (expr 0 ;; want URightBracket ;; want UEq ;; expr 0)
      (fun s => if at_kind s UIdentifier && match peek_non_trivia_at lua_ign s 1 with Some t => tk_kind t =? UEq | None => false end
                then (lua_bump ;; want UEq ;; expr 0) s else expr 0 s) s.
  (** parser/mod.rs:274-294: the fields *)
  Fixpoint fields (fuel : nat) : act := fun s =>
    match fuel with
    | O => None
    | S f =>
        if ps_not_at_end s && negb (at_kind s URightBrace)
        then (node UTableField field ;; if_eat UComma (fields f) (if_eat USemicolon (fields f) nop)) s
        else Some s
    end.
  (** parser/mod.rs:270-297 [parse_table_constructor] *)
  Definition table : pstate -> option (item * pstate) :=
    node_at checkpoint UTableExpr (want ULeftBrace ;; fields n ;; want URightBrace).

  (** parser/mod.rs:301-351 [primary] *)
  Definition primary_ (s : pstate) : option (item * pstate) :=
    let k := match peek_kind s with Some k => k | None => UEof end in
    if existsb (Nat.eqb k) [UNil; UFalse; UTrue; UNumber; UString; UDotDotDot] then node_at checkpoint ULiteralExpr lua_bump s
    else if k =? UIdentifier then node_at checkpoint UIdentifierExpr lua_bump s
    else if k =? UFunction then node_at checkpoint UFunctionExpr (lua_bump ;; body) s
    else if k =? ULeftParen then node_at checkpoint UParenthesizedExpr (lua_bump ;; expr 0 ;; want URightParen) s
    else if k =? ULeftBrace then table s
    else node_at checkpoint UError
      (if existsb (Nat.eqb k) [URightParen; URightBrace; URightBracket; UComma; USemicolon; UEnd; UElse; UElseif; UUntil]
       then nop else if ps_not_at_end s then lua_bump else nop) (expected s).

  (** parser/mod.rs:353-363 [prefix], with [unary] (oak-core parser/pratt.rs:124-135) *)
  Definition lua_prefix (s : pstate) : option (item * pstate) :=
    let k := match peek_kind s with Some k => k | None => UEof end in
    if existsb (Nat.eqb k) [UMinus; UNot; UHash; UTilde] then node_at checkpoint UUnaryExpr (want k ;; expr 11) s else primary_ s.

  (** parser/mod.rs:369-383: precedence and associativity *)
  Definition lua_table (k : nat) : option (nat * assoc) :=
    if k =? UOr then Some (1, ALeft) else if k =? UAnd then Some (2, ALeft)
    else if existsb (Nat.eqb k) [ULt; UGt; ULtEq; UGtEq; UTildeEq; UEqEq] then Some (3, ALeft)
    else if k =? UPipe then Some (4, ALeft) else if k =? UTilde then Some (5, ALeft) else if k =? UAmpersand then Some (6, ALeft)
    else if existsb (Nat.eqb k) [ULtLt; UGtGt] then Some (7, ALeft) else if k =? UDotDot then Some (8, ARight)
    else if existsb (Nat.eqb k) [UPlus; UMinus] then Some (9, ALeft)
    else if existsb (Nat.eqb k) [UStar; USlash; USlashSlash; UPercent] then Some (10, ALeft) else if k =? UCaret then Some (12, ARight)
    else if existsb (Nat.eqb k) [UDot; UColon; ULeftParen; ULeftBrace; UString; ULeftBracket] then Some (13, ALeft)
    else None.
  (** parser/mod.rs:411-428: the arguments of a call *)
  Definition arguments : act :=
    if_eat ULeftParen (if_at [URightParen] nop exprs ;; want URightParen)
      (if_at [ULeftBrace] (dropped table) (if_at [UString] lua_bump (fun s => Some (expected s)))).
  (** parser/mod.rs:365-433 [infix], with [binary] (oak-core parser/pratt.rs:102-120); [Some (None, s)]: no operator *)
  Definition lua_infix (left : item) (min : nat) (s : pstate) : option (option item * pstate) :=
    match peek_kind s with
    | None => Some (None, s)
    | Some k =>
        match lua_table k with
        | None => Some (None, s)
        | Some (prec, a) =>
            if prec <? min then Some (None, s)
            else
              match fst left with
              | None => None
              | Some id =>
                  let cp s := checkpoint_before s id in
                  let r :=
                    if (k =? UDot) || (k =? UColon) then node_at cp UMemberExpr (lua_bump ;; want UIdentifier) s
                    else if k =? ULeftBracket then node_at cp UIndexExpr (lua_bump ;; expr 0 ;; want URightBracket) s
                    else if existsb (Nat.eqb k) [ULeftParen; ULeftBrace; UString] then node_at cp UCallExpr arguments s
                    else match next_prec prec a with None => None | Some np => node_at cp UBinaryExpr (want k ;; expr np) s end in
                  match r with None => None | Some (it, s1) => Some (Some it, s1) end
              end
        end
    end.
  (** oak-core parser/pratt.rs:237-243 [parse] *)
  Fixpoint pratt_loop (fuel : nat) (left : item) (min : nat) : act := fun s =>
    match fuel with
    | O => None
    | S f =>
        match lua_infix left min s with
        | None => None
        | Some (None, s1) => Some s1
        | Some (Some it, s1) => pratt_loop f it min s1
        end
    end.
  Definition lua_pratt (min : nat) : act := fun s =>
    match lua_prefix s with None => None | Some (it, s1) => pratt_loop n it min s1 end.
End Open.

(** [PrattParser::parse] for [Some min], parser/mod.rs:262-268 [parse_block] for [None] *)
Fixpoint lua (fuel : nat) (what : option nat) : act :=
  match fuel with
  | O => fun _ => None
  | S f =>
      let expr min := lua f (Some min) in
      let block := lua f None in
      match what with
      | Some min => lua_pratt expr block f min
      | None => while_not f [UEnd; UElse; UElseif; UUntil] (statement expr block f)
      end
  end.

(** parser/mod.rs:25-34 [parse_root_internal], 437-440 [parse] with oak-core parser/mod.rs:77-120: parsing a text in a new
    session *)
Definition lua_root (fuel : nat) (s : pstate) : option (green * list (nat * nat)) :=
  match node_at checkpoint USourceFile (while_not fuel [] (statement (fun min => lua fuel (Some min)) (lua fuel None) fuel)) s with
  | None => None
  | Some (root, s1) => Some (snd root, ps_errs s1)
  end.
Definition lua_tree (fuel : nat) (text : str) : option (green * list (nat * nat)) :=
  match lua_lex text with
  | None => None
  | Some toks => lua_root fuel (ps_new lua_ign toks (length text) [])
  end.
