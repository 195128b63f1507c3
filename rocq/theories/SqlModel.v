(** Model of the SQL language: examples/oak-sql/src/lexer/mod.rs and parser/mod.rs.  The source is a [SourceText], the
    session is new.  [None] is a panic or that the fuel is used up.  [char::is_alphanumeric] and [str::to_uppercase] (Unicode
    tables) are the parameters [alnum] and [upper]. *)
From Verif Require Import Base Utf8 RopeModel CursorModel LexModel TreeModel VfsModel ParserModel LangModel IniModel.

(** lexer/token_type.rs:130-422: the kinds in use, numbered as they are declared *)
Definition QExpression := 9. Definition QIdentifier := 10. Definition QWhitespace := 19. Definition QNewline := 20.
Definition QComment := 21. Definition QLineComment := 22. Definition QBlockComment := 23.
Definition QNumberLiteral := 24. Definition QFloatLiteral := 25. Definition QStringLiteral := 26.
Definition QBooleanLiteral := 27. Definition QNullLiteral := 28. Definition QIdentifier_ := 29.
Definition QSelect := 30. Definition QFrom := 31. Definition QWhere := 32. Definition QInsert := 33.
Definition QInto := 34. Definition QValues := 35. Definition QUpdate := 36. Definition QSet := 37.
Definition QDelete := 38. Definition QCreate := 39. Definition QTable := 40. Definition QDrop := 41.
Definition QAlter := 42. Definition QPrimary := 45. Definition QKey := 46. Definition QForeign := 47.
Definition QReferences := 48. Definition QIndex := 49. Definition QUnique := 50. Definition QNot := 51.
Definition QNull := 52. Definition QDefault := 53. Definition QAutoIncrement := 54. Definition QAnd := 55.
Definition QOr := 56. Definition QIn := 57. Definition QLike := 58. Definition QBetween := 59. Definition QIs := 60.
Definition QAs := 61. Definition QJoin := 62. Definition QInner := 63. Definition QLeft := 64. Definition QRight := 65.
Definition QFull := 66. Definition QOuter := 67. Definition QOn := 68. Definition QGroup := 69. Definition QBy := 70.
Definition QHaving := 71. Definition QOrder := 72. Definition QAsc := 73. Definition QDesc := 74.
Definition QLimit := 75. Definition QOffset := 76. Definition QUnion := 77. Definition QAll := 78.
Definition QDistinct := 79. Definition QTrue := 88. Definition QFalse := 89. Definition QInt := 101.
Definition QInteger := 102. Definition QVarchar := 103. Definition QChar := 104. Definition QText := 105.
Definition QDate := 106. Definition QTime := 107. Definition QTimestamp := 108. Definition QDecimal := 109.
Definition QFloat := 110. Definition QDouble := 111. Definition QBoolean := 112. Definition QPlus := 113.
Definition QMinus := 114. Definition QStar := 115. Definition QSlash := 116. Definition QPercent := 117.
Definition QEqual := 118. Definition QNotEqual := 119. Definition QLess := 120. Definition QGreater := 121.
Definition QLessEqual := 122. Definition QGreaterEqual := 123. Definition QLeftParen := 132.
Definition QRightParen := 133. Definition QComma := 138. Definition QSemicolon := 139. Definition QDot := 140.
Definition QError := 143. Definition QEof := 144.

(** parser/element_type.rs:4-37: the kinds of nodes, with numbers of their own *)
Definition NRoot := 0. Definition NIdentifier := 1. Definition NExpression := 2. Definition NErrorNode := 3.
Definition NSelectStatement := 4. Definition NInsertStatement := 5. Definition NUpdateStatement := 6.
Definition NDeleteStatement := 7. Definition NCreateStatement := 8. Definition NDropStatement := 9.
Definition NAlterStatement := 10. Definition NJoinClause := 11. Definition NGroupByClause := 12.
Definition NHavingClause := 13. Definition NOrderByClause := 14. Definition NLimitClause := 15.

(** parser/element_type.rs:42-46: [From<SqlTokenType>] is a [transmute], which keeps the number (both enums are laid out in
    the order of declaration) *)
Definition sql_into (k : nat) : nat := k.

Definition sql_blank (c : Z) : bool := ((c =? 32) || (c =? 9))%Z.
Definition sql_eol (c : Z) : bool := ((c =? 10) || (c =? 13))%Z.
Definition sql_quote (c : Z) : bool := ((c =? 34) || (c =? 39))%Z.
Definition sql_start (c : Z) : bool := ascii_alpha_c c || (c =? 95)%Z.
Definition sql_digit (c : Z) : bool := ascii_digit_c c || (c =? 95)%Z.
Definition sql_sign (c : Z) : bool := ((c =? 43) || (c =? 45))%Z.
Definition sql_exp (c : Z) : bool := ((c =? 101) || (c =? 69))%Z.
Definition sql_opt (p : Z -> bool) (o : option Z) : bool := match o with Some c => p c | None => false end.

Section Lexer.
  Variable alnum : Z -> bool.
  Variable upper : str -> str.
  Variable text : str.
  Let src := flat_source text.

  (** [state.add_token(kind, start, state.get_position()); true] *)
  Definition sql_token (kind : nat) (l l' : lexer) : option (bool * lexer) := Some (true, add_token l' kind (lx_pos l) (lx_pos l')).
  Definition sql_word (c : Z) : bool := alnum c || (c =? 95)%Z.

  (** lexer/mod.rs:95-114 [lex_newline] *)
  Definition sql_newline (l : lexer) : option (bool * lexer) :=
    let '(ch, l1) := lx_current src l in
    if is_char 10 ch then sql_token QNewline l (lx_advance src l1 1)
    else if is_char 13 ch then
      let '(next, l2) := lx_current src (lx_advance src l1 1) in
      sql_token QNewline l (if is_char 10 next then lx_advance src l2 1 else l2)
    else Some (false, l1).
  (** lexer/mod.rs:116-119 [skip_whitespace] *)
  Definition sql_whitespace (l : lexer) : option (bool * lexer) := scan_whitespace src true char_is_whitespace QWhitespace l.
  (** lexer/mod.rs:135-143: to the end of a block comment *)
  Fixpoint sql_block (fuel : nat) (l : lexer) : option lexer :=
    match fuel with
    | O => None
    | S f =>
        match lx_current src l with
        | (None, l1) => Some l1
        | (Some ch, l1) =>
            match lx_starts_with src l1 (lit "*/") with
            | None => None
            | Some (true, l2) => Some (lx_advance src l2 2)
            | Some (false, l2) => sql_block f (lx_advance src l2 (char_len ch))
            end
        end
    end.
  (** lexer/mod.rs:121-149 [skip_comment] *)
  Definition sql_comment (l : lexer) : option (bool * lexer) :=
    match lx_starts_with src l (lit "--") with
    | None => None
    | Some (true, l1) =>
        match lx_take_while src (scan_fuel src) (fun c => negb (sql_eol c)) (lx_advance src l1 2) with
        | None => None
        | Some l2 => sql_token QComment l l2
        end
    | Some (false, l1) =>
        match lx_starts_with src l1 (lit "/*") with
        | None => None
        | Some (true, l2) =>
            match sql_block (scan_fuel src) (lx_advance src l2 2) with
            | None => None
            | Some l3 => sql_token QComment l l3
            end
        | Some (false, l2) => Some (false, l2)
        end
    end.
  (** lexer/mod.rs:159-181: the inside of a string *)
  Fixpoint sql_quoted (quote : Z) (fuel : nat) (escaped : bool) (l : lexer) : option lexer :=
    match fuel with
    | O => None
    | S f =>
        match lx_current src l with
        | (None, l1) => Some l1
        | (Some ch, l1) =>
            if (ch =? quote)%Z && negb escaped then Some (lx_advance src l1 1)
            else
              let l2 := lx_advance src l1 (char_len ch) in
              if escaped then sql_quoted quote f false l2
              else if (ch =? 92)%Z then sql_quoted quote f true l2
              else if sql_eol ch then Some l2
              else sql_quoted quote f escaped l2
        end
    end.
  (** lexer/mod.rs:151-188 [lex_string_literal] *)
  Definition sql_string (l : lexer) : option (bool * lexer) :=
    match lx_current src l with
    | (None, l1) => Some (false, l1)
    | (Some quote, l1) =>
        if sql_quote quote then
          match sql_quoted quote (scan_fuel src) false (lx_advance src l1 1) with
          | None => None
          | Some l2 => sql_token QStringLiteral l l2
          end
        else Some (false, l1)
    end.
  (** lexer/mod.rs:205-212, 220-227, 243-250: digits and underscores; [advance(1)] is their length *)
  Definition sql_digits (l : lexer) : option lexer := lx_take_while src (scan_fuel src) sql_digit l.
  (** lexer/mod.rs:215-229: the fraction *)
  Definition sql_fraction (l : lexer) : option (bool * lexer) :=
    let '(ch, l1) := lx_current src l in
    if is_char 46 ch && sql_opt ascii_digit_c (peek_next_n src (lx_cur l1) 1)
    then option_map (pair true) (sql_digits (lx_advance src l1 1)) else Some (false, l1).
  (** lexer/mod.rs:232-253: the exponent *)
  Definition sql_exponent (l : lexer) : option (bool * lexer) :=
    let '(ch, l1) := lx_current src l in
    if sql_opt sql_exp ch && sql_opt (fun c => sql_sign c || ascii_digit_c c) (peek_next_n src (lx_cur l1) 1)
    then
      let '(sign, l2) := lx_current src (lx_advance src l1 1) in
      option_map (pair true) (sql_digits (if sql_opt sql_sign sign then lx_advance src l2 1 else l2))
    else Some (false, l1).
  (** lexer/mod.rs:190-258 [lex_number_literal] *)
  Definition sql_number (l : lexer) : option (bool * lexer) :=
    let '(ch, l1) := lx_current src l in
    if sql_opt ascii_digit_c ch then
      match sql_digits (lx_advance src l1 1) with
      | None => None
      | Some l2 =>
          match sql_fraction l2 with
          | None => None
          | Some (f, l3) =>
              match sql_exponent l3 with
              | None => None
              | Some (e, l4) => sql_token (if f || e then QFloatLiteral else QNumberLiteral) l l4
              end
          end
      end
    else Some (false, l1).

  (** lexer/mod.rs:283-343 *)
  Definition sql_keywords : list (str * nat) :=
    [(lit "SELECT", QSelect); (lit "FROM", QFrom); (lit "WHERE", QWhere); (lit "INSERT", QInsert);
     (lit "UPDATE", QUpdate); (lit "DELETE", QDelete); (lit "CREATE", QCreate); (lit "DROP", QDrop);
     (lit "ALTER", QAlter); (lit "TABLE", QTable); (lit "INDEX", QIndex); (lit "INTO", QInto);
     (lit "VALUES", QValues); (lit "SET", QSet); (lit "JOIN", QJoin); (lit "INNER", QInner); (lit "LEFT", QLeft);
     (lit "RIGHT", QRight); (lit "FULL", QFull); (lit "OUTER", QOuter); (lit "ON", QOn); (lit "AND", QAnd);
     (lit "OR", QOr); (lit "NOT", QNot); (lit "NULL", QNull); (lit "TRUE", QTrue); (lit "FALSE", QFalse);
     (lit "AS", QAs); (lit "BY", QBy); (lit "ORDER", QOrder); (lit "ASC", QAsc); (lit "DESC", QDesc);
     (lit "GROUP", QGroup); (lit "HAVING", QHaving); (lit "LIMIT", QLimit); (lit "OFFSET", QOffset);
     (lit "UNION", QUnion); (lit "ALL", QAll); (lit "DISTINCT", QDistinct); (lit "PRIMARY", QPrimary);
     (lit "KEY", QKey); (lit "FOREIGN", QForeign); (lit "REFERENCES", QReferences); (lit "DEFAULT", QDefault);
     (lit "UNIQUE", QUnique); (lit "AUTO_INCREMENT", QAutoIncrement); (lit "INT", QInt); (lit "INTEGER", QInteger);
     (lit "VARCHAR", QVarchar); (lit "CHAR", QChar); (lit "TEXT", QText); (lit "DATE", QDate); (lit "TIME", QTime);
     (lit "TIMESTAMP", QTimestamp); (lit "DECIMAL", QDecimal); (lit "FLOAT", QFloat); (lit "DOUBLE", QDouble);
     (lit "BOOLEAN", QBoolean)].
  Definition sql_word_kind (t : str) : nat :=
    match find (fun p => str_eqb (upper t) (fst p)) sql_keywords with Some p => snd p | None => QIdentifier end.
  (** lexer/mod.rs:260-347 [lex_identifier_or_keyword], called when the character is an ASCII letter or an underscore *)
  Definition sql_identifier (l : lexer) : option (bool * lexer) :=
    match lx_current src l with
    | (None, l1) => Some (false, l1)
    | (Some ch, l1) =>
        match lx_take_while src (scan_fuel src) sql_word (lx_advance src l1 (char_len ch)) with
        | None => None
        | Some l2 => sql_token (sql_word_kind (flat_text_in text (lx_pos l) (lx_pos l2))) l l2
        end
    end.

  (** lexer/mod.rs:352-365 *)
  Definition sql_ops : list (str * nat) :=
    [(lit "<=", QLessEqual); (lit ">=", QGreaterEqual); (lit "<>", QNotEqual); (lit "!=", QNotEqual); (lit "=", QEqual); (lit "<", QLess);
     (lit ">", QGreater); (lit "+", QPlus); (lit "-", QMinus); (lit "*", QStar); (lit "/", QSlash); (lit "%", QPercent)].
  (** lexer/mod.rs:367-373 *)
  Fixpoint sql_first (ops : list (str * nat)) (l : lexer) : option (bool * lexer) :=
    match ops with
    | [] => Some (false, l)
    | (op, kind) :: rest =>
        match lx_starts_with src l op with
        | None => None
        | Some (true, l1) => sql_token kind l (lx_advance src l1 (length op))
        | Some (false, l1) => sql_first rest l1
        end
    end.
  (** lexer/mod.rs:349-376 [lex_operators] *)
  Definition sql_operators (l : lexer) : option (bool * lexer) := sql_first sql_ops l.
  (** lexer/mod.rs:385-392 *)
  Definition sql_singles : list (Z * nat) := [(40, QLeftParen); (41, QRightParen); (44, QComma); (59, QSemicolon); (46, QDot)]%Z.
  (** lexer/mod.rs:378-397 [lex_single_char_tokens] *)
  Definition sql_single (l : lexer) : option (bool * lexer) :=
    match lx_current src l with
    | (None, l1) => Some (false, l1)
    | (Some ch, l1) =>
        match find (fun p => (ch =? fst p)%Z) sql_singles with
        | None => Some (false, l1)
        | Some (_, kind) => sql_token kind l (lx_advance src l1 (char_len ch))
        end
    end.
  (** lexer/mod.rs:50-65: a comment or an operator *)
  Definition sql_comment_or (open : str) (l : lexer) : option (bool * lexer) :=
    match lx_starts_with src l open with
    | None => None
    | Some (b, l1) => if b then sql_comment l1 else sql_operators l1
    end.

  (** lexer/mod.rs:43-86 *)
  Definition sql_rule (ch : Z) (l : lexer) : option (bool * lexer) :=
    if sql_blank ch then sql_whitespace l
    else if sql_eol ch then sql_newline l
    else if (ch =? 45)%Z then sql_comment_or (lit "--") l
    else if (ch =? 47)%Z then sql_comment_or (lit "/*") l
    else if sql_quote ch then sql_string l
    else if ascii_digit_c ch then sql_number l
    else if sql_start ch then sql_identifier l
    else if existsb (Z.eqb ch) (lit "<>!=+*%") then sql_operators l
    else if existsb (Z.eqb ch) (lit "(),;.") then sql_single l
    else sql_token QError l (lx_advance src l (char_len ch)).
  (** lexer/mod.rs:38-92 [run] *)
  Definition sql_round (l : lexer) : option lexer :=
    match lx_current src l with
    | (None, l1) => Some (advance_if_dead_lock src (lx_pos l) l1)
    | (Some ch, l1) =>
        match sql_rule ch l1 with
        | None => None
        | Some (_, l2) => Some (advance_if_dead_lock src (lx_pos l) l2)
        end
    end.
  (** lexer/mod.rs:22-31 [lex] *)
  Definition sql_lex : option (list token) := lex_all src sql_round QEof.
End Lexer.

(** ** Parser *)

(** lexer/token_type.rs:11-13 *)
Definition sql_ign (k : nat) : bool := existsb (Nat.eqb k) [QWhitespace; QNewline; QComment; QLineComment; QBlockComment].

(** What a parsing function does to the state.  All of them return [Ok]. *)
Definition sql_act := pstate -> option pstate.
Definition sql_nop : sql_act := fun s => Some s.
Definition sql_seq (a b : sql_act) : sql_act := fun s => match a s with None => None | Some s1 => b s1 end.
Infix ";>" := sql_seq (at level 61, right associativity).
Definition sql_bump : sql_act := fun s => Some (bump sql_ign s).
(** [state.expect(k).ok();] *)
Definition sql_want (k : nat) : sql_act := fun s => Some (snd (expect sql_ign k s)).
(** [state.eat(k);] *)
Definition sql_may (k : nat) : sql_act := fun s => Some (snd (eat sql_ign k s)).
(** [if state.eat(k) { a } else { b }] *)
Definition sql_if (k : nat) (a b : sql_act) : sql_act := fun s => let '(ok, s1) := eat sql_ign k s in if ok then a s1 else b s1.
(** [state.advance_until(k);] *)
Definition sql_until (k : nat) : sql_act := fun s => Some (advance_until sql_ign k s).
(** [while state.not_at_end() && state.peek_kind() != Some(k1) && … { a }] *)
Definition sql_more (stops : list nat) (s : pstate) : bool := ps_not_at_end s && negb (existsb (at_kind s) stops).
Fixpoint sql_while (fuel : nat) (c : pstate -> bool) (a : sql_act) : sql_act := fun s =>
  match fuel with O => None | S f => if c s then (a ;> sql_while f c a) s else Some s end.
(** [while … { a; if !state.eat(Comma) { break; } }] *)
Fixpoint sql_commas (fuel : nat) (stops : list nat) (a : sql_act) : sql_act := fun s =>
  match fuel with
  | O => None
  | S f => if sql_more stops s then (a ;> sql_if QComma (sql_commas f stops a) sql_nop) s else Some s
  end.
(** [let cp = …; a; state.finish_at(cp, kind)] *)
Definition sql_node_at (cp : pstate -> nat * nat) (kind : nat) (a : sql_act) : pstate -> option (item * pstate) := fun s =>
  match a s with None => None | Some s1 => finish_at s1 (cp s) kind end.
Definition sql_node (kind : nat) (a : sql_act) : sql_act := fun s => option_map snd (sql_node_at checkpoint kind a s).

Section Open.
  (** [PrattParser::parse(state, min, self)] with its node dropped *)
  Variable expr : nat -> sql_act.
  (** fuel for the loops *)
  Variable n : nat.

  (** parser/mod.rs:21-44 [primary], 46-48 [prefix] *)
  Definition sql_primary (s : pstate) : option (item * pstate) :=
    if at_kind s QIdentifier_ then sql_node_at checkpoint NIdentifier sql_bump s
    else if existsb (at_kind s) [QNumberLiteral; QStringLiteral; QBooleanLiteral; QNullLiteral] then sql_node_at checkpoint NExpression sql_bump s
    else if at_kind s QLeftParen then sql_node_at checkpoint NExpression (sql_bump ;> expr 0 ;> sql_want QRightParen) s
    else sql_node_at checkpoint NErrorNode sql_bump s.
  (** parser/mod.rs:54-61 *)
  Definition sql_level (k : nat) : option nat :=
    if k =? QOr then Some 1 else if k =? QAnd then Some 2
    else if existsb (Nat.eqb k) [QEqual; QNotEqual; QLess; QGreater; QLessEqual; QGreaterEqual; QLike; QIn; QBetween; QIs] then Some 3
    else if existsb (Nat.eqb k) [QPlus; QMinus] then Some 10
    else if existsb (Nat.eqb k) [QStar; QSlash; QPercent] then Some 11 else None.
  (** parser/mod.rs:50-68 [infix] with [binary] (oak-core parser/pratt.rs:102-120); the kind of the node is the conversion of
      the kind of token [Expression].  [Some (None, s)]: no operator *)
  Definition sql_infix (left : item) (min : nat) (s : pstate) : option (option item * pstate) :=
    match peek_kind s with
    | None => Some (None, s)
    | Some k =>
        match sql_level k with
        | None => Some (None, s)
        | Some prec =>
            if prec <? min then Some (None, s)
            else
              match fst left, next_prec prec ALeft with
              | Some id, Some np =>
                  match sql_node_at (fun s => checkpoint_before s id) (sql_into QExpression) (sql_want k ;> expr np) s with
                  | None => None
                  | Some (it, s1) => Some (Some it, s1)
                  end
              | _, _ => None
              end
        end
    end.
  (** oak-core parser/pratt.rs:237-243 [parse] *)
  Fixpoint sql_pratt_loop (fuel : nat) (left : item) (min : nat) : sql_act := fun s =>
    match fuel with
    | O => None
    | S f =>
        match sql_infix left min s with
        | None => None
        | Some (None, s1) => Some s1
        | Some (Some it, s1) => sql_pratt_loop f it min s1
        end
    end.
  Definition sql_pratt (min : nat) : sql_act := fun s =>
    match sql_primary s with None => None | Some (it, s1) => sql_pratt_loop n it min s1 end.

  (** parser/mod.rs:111-115, 206-209: expressions with or without commas *)
  Definition sql_items (stop : nat) : sql_act := sql_while n (sql_more [stop]) (expr 0 ;> sql_may QComma).
  (** parser/mod.rs:123-133: one join *)
  Definition sql_join : sql_act :=
    sql_node NJoinClause
      ((fun s => if at_kind s QJoin then Some s else (sql_bump ;> sql_may QOuter) s) ;>
       sql_want QJoin ;> sql_want QIdentifier_ ;> sql_if QOn (expr 0) sql_nop).
  (** parser/mod.rs:121-138 *)
  Definition sql_joins : sql_act := sql_while n (fun s => existsb (at_kind s) [QJoin; QInner; QLeft; QRight; QFull]) sql_join.
  (** parser/mod.rs:145-155, 157-161, 163-176, 178-190 *)
  Definition sql_group : sql_act := sql_node NGroupByClause (sql_want QBy ;> sql_commas n [] (expr 0)).
  Definition sql_having : sql_act := sql_node NHavingClause (expr 0).
  Definition sql_order : sql_act := sql_node NOrderByClause (sql_want QBy ;> sql_commas n [] (expr 0 ;> sql_if QAsc sql_nop (sql_may QDesc))).
  Definition sql_limit : sql_act :=
    sql_if QLimit (sql_node NLimitClause (sql_want QNumberLiteral ;> sql_if QOffset (sql_want QNumberLiteral) sql_nop))
      (sql_if QOffset (sql_node NLimitClause (sql_want QNumberLiteral)) sql_nop).
  (** parser/mod.rs:106-195 [parse_select] *)
  Definition sql_select : sql_act :=
    sql_node NSelectStatement
      (sql_want QSelect ;> sql_items QFrom ;> sql_if QFrom (sql_want QIdentifier_ ;> sql_joins) sql_nop ;>
       sql_if QWhere (expr 0) sql_nop ;> sql_if QGroup sql_group sql_nop ;> sql_if QHaving sql_having sql_nop ;>
       sql_if QOrder sql_order sql_nop ;> sql_limit ;> sql_may QSemicolon).
  (** parser/mod.rs:197-217 [parse_insert] *)
  Definition sql_insert : sql_act :=
    sql_node NInsertStatement
      (sql_want QInsert ;> sql_may QInto ;> sql_want QIdentifier_ ;>
       sql_if QValues (sql_if QLeftParen (sql_items QRightParen ;> sql_want QRightParen) sql_nop) sql_nop ;> sql_may QSemicolon).
  (** parser/mod.rs:219-243 [parse_update] *)
  Definition sql_update : sql_act :=
    sql_node NUpdateStatement
      (sql_want QUpdate ;> sql_want QIdentifier_ ;>
       sql_if QSet (sql_commas n [QWhere; QSemicolon] (sql_want QIdentifier_ ;> sql_want QEqual ;> expr 0)) sql_nop ;>
       sql_if QWhere (expr 0) sql_nop ;> sql_may QSemicolon).
  (** parser/mod.rs:245-259 [parse_delete] *)
  Definition sql_delete : sql_act :=
    sql_node NDeleteStatement
      (sql_want QDelete ;> sql_may QFrom ;> sql_want QIdentifier_ ;> sql_if QWhere (expr 0) sql_nop ;> sql_may QSemicolon).
  (** parser/mod.rs:261-269 [parse_create], 271-279 [parse_drop], 281-289 [parse_alter] *)
  Definition sql_skipped (kind : nat) : sql_act := sql_node kind (sql_bump ;> sql_until QSemicolon ;> sql_may QSemicolon).
  (** parser/mod.rs:88-104 [parse_statement] *)
  Definition sql_statement : sql_act := fun s =>
    (if at_kind s QSelect then sql_select else if at_kind s QInsert then sql_insert else if at_kind s QUpdate then sql_update
     else if at_kind s QDelete then sql_delete else if at_kind s QCreate then sql_skipped NCreateStatement
     else if at_kind s QDrop then sql_skipped NDropStatement else if at_kind s QAlter then sql_skipped NAlterStatement
     else sql_until QSemicolon ;> sql_may QSemicolon) s.
  (** parser/mod.rs:78-84: one round of the loop over the file *)
  Definition sql_top : sql_act := fun s =>
    if match ps_current s with Some t => sql_ign (tk_kind t) | None => false end then Some (ps_advance sql_ign s) else sql_statement s.
End Open.

(** [PrattParser::parse] *)
Fixpoint sql_expr (fuel : nat) (min : nat) : sql_act :=
  match fuel with O => fun _ => None | S f => sql_pratt (sql_expr f) f min end.

(** parser/mod.rs:76-86 [parse_root_internal], 293-296 [parse] with oak-core parser/mod.rs:77-120: parsing a text in a new
    session *)
Definition sql_root (fuel : nat) (s : pstate) : option (green * list (nat * nat)) :=
  match sql_node_at checkpoint NRoot (sql_while fuel ps_not_at_end (sql_top (sql_expr fuel) fuel)) s with
  | None => None
  | Some (root, s1) => Some (snd root, ps_errs s1)
  end.
Definition sql_tree (alnum : Z -> bool) (upper : str -> str) (fuel : nat) (text : str) : option (green * list (nat * nat)) :=
  match sql_lex alnum upper text with
  | None => None
  | Some toks => sql_root fuel (ps_new sql_ign toks (length text) [])
  end.
