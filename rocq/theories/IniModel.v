(** Model of the INI language: examples/oak-ini/src/lexer/mod.rs, parser/mod.rs, parser/parse_top_level.rs and the
    entry of builder/mod.rs.  The source is a [SourceText]. *)
From Verif Require Import Base Utf8 RopeModel SimdModel CursorModel LexModel TreeModel ParserModel VfsModel LangModel.

(** lexer/token_type.rs:9-35 *)
Definition IWhitespace := 0. Definition INewline := 1. Definition IComment := 2. Definition IError := 3. Definition IEof := 4.
Definition ILeftBrace := 5. Definition IRightBrace := 6. Definition ILeftBracket := 7. Definition IRightBracket := 8.
Definition IDoubleLeft := 9. Definition IDoubleRight := 10. Definition IComma := 11. Definition IDot := 12. Definition IEqual := 13.
Definition IIdentifier := 14. Definition IString := 15. Definition IInteger := 16. Definition IFloat := 17. Definition IBoolean := 18.
Definition IDateTime := 19.

(** parser/element_type.rs:33-44 *)
Definition IRoot := 20. Definition ITable := 23. Definition IArrayOfTables := 24. Definition IKeyValue := 25.
Definition IKey := 26. Definition IValue := 27. Definition IArray := 28. Definition IInlineTable := 29.

Definition ascii_digit_c (c : Z) : bool := ((48 <=? c) && (c <=? 57))%Z.
Definition ascii_alpha_c (c : Z) : bool := (((65 <=? c) && (c <=? 90)) || ((97 <=? c) && (c <=? 122)))%Z.
Definition is_char (x : Z) (o : option Z) : bool := match o with Some c => (c =? x)%Z | None => false end.

Section Lexer.
  Variable text : str.
  Let src := flat_source text.

  (** lexer/mod.rs:76-94 [skip_whitespace] *)
  Definition ini_whitespace (l : lexer) : option (bool * lexer) :=
    option_map (token_if IWhitespace l) (lx_take_while src (scan_fuel src) (fun c => (c =? 32) || (c =? 9) || (c =? 13))%Z l).

  (** lexer/mod.rs:97-106 [lex_newline] *)
  Definition ini_newline (l : lexer) : option (bool * lexer) :=
    let '(ch, l1) := lx_current src l in
    if is_char 10 ch then let l2 := lx_advance src l1 1 in Some (true, add_token l2 INewline (lx_pos l) (lx_pos l2)) else Some (false, l1).

  (** lexer/mod.rs:109-133 [skip_comment] *)
  Definition ini_comment (l : lexer) : option (bool * lexer) :=
    let '(ch, l1) := lx_current src l in
    if is_char 59 ch || is_char 35 ch then
      match lx_take_while src (scan_fuel src) (fun c => negb (c =? 10))%Z (lx_advance src l1 1) with
      | None => None
      | Some l2 => Some (true, add_token l2 IComment (lx_pos l) (lx_pos l2))
      end
    else Some (false, l1).

  (** lexer/mod.rs:145-162: the inside of a string; an escaped character is passed by one byte *)
  Fixpoint ini_string_loop (fuel : nat) (quote : Z) (l : lexer) : option lexer :=
    match fuel with
    | O => None
    | S f =>
        match lx_current src l with
        | (None, l1) => Some l1
        | (Some ch, l1) =>
            if (ch =? quote)%Z then Some (lx_advance src l1 1)
            else if (ch =? 92)%Z then
              let '(next, l2) := lx_current src (lx_advance src l1 1) in
              ini_string_loop f quote (match next with Some _ => lx_advance src l2 1 | None => l2 end)
            else ini_string_loop f quote (lx_advance src l1 (char_len ch))
        end
    end.

  (** lexer/mod.rs:136-169 [lex_string_literal] *)
  Definition ini_string (l : lexer) : option (bool * lexer) :=
    match lx_current src l with
    | (Some q, l1) =>
        if ((q =? 34) || (q =? 39))%Z then
          match ini_string_loop (scan_fuel src) q (lx_advance src l1 1) with
          | None => None
          | Some l2 => Some (true, add_token l2 IString (lx_pos l) (lx_pos l2))
          end
        else Some (false, l1)
    | (None, l1) => Some (false, l1)
    end.

  (** lexer/mod.rs:200-223: the rest of a number; answers [has_dot], [has_exp] *)
  Fixpoint ini_number_loop (fuel : nat) (dot exp : bool) (l : lexer) : option (bool * bool * lexer) :=
    match fuel with
    | O => None
    | S f =>
        match lx_current src l with
        | (None, l1) => Some (dot, exp, l1)
        | (Some ch, l1) =>
            if ascii_digit_c ch then ini_number_loop f dot exp (lx_advance src l1 1)
            else if (ch =? 46)%Z && negb dot && negb exp then ini_number_loop f true exp (lx_advance src l1 1)
            else if ((ch =? 101) || (ch =? 69))%Z && negb exp then
              let '(sign, l2) := lx_current src (lx_advance src l1 1) in
              ini_number_loop f dot true (if is_char 43 sign || is_char 45 sign then lx_advance src l2 1 else l2)
            else Some (dot, exp, l1)
        end
    end.

  (** lexer/mod.rs:172-243 [lex_number_literal] *)
  Definition ini_number (l : lexer) : option (bool * lexer) :=
    match lx_current src l with
    | (None, l1) => Some (false, l1)
    | (Some first, l1) =>
        let sign := ((first =? 45) || (first =? 43))%Z in
        if negb (ascii_digit_c first) && negb sign then Some (false, l1)
        else if sign && match peek_next_n src (lx_cur l1) 1 with Some next => negb (ascii_digit_c next) | None => true end then Some (false, l1)
        else
          match ini_number_loop (scan_fuel src) false false (lx_advance src l1 1) with
          | None => None
          | Some (dot, exp, l2) =>
              let t := flat_text_in text (lx_pos l) (lx_pos l2) in
              if existsb (str_eqb t) [lit "-"; lit "+"; lit "."]
              then Some (false, Lexer (set_position src (lx_cur l2) (lx_pos l)) (lx_toks l2))
              else Some (true, add_token l2 (if dot || exp then IFloat else IInteger) (lx_pos l) (lx_pos l2))
          end
    end.

  (** lexer/mod.rs:259-266: the rest of an identifier *)
  Fixpoint ini_word_loop (fuel : nat) (l : lexer) : option lexer :=
    match fuel with
    | O => None
    | S f =>
        match lx_current src l with
        | (None, l1) => Some l1
        | (Some c, l1) =>
            if ascii_alpha_c c || ascii_digit_c c || (c =? 95)%Z || (c =? 45)%Z then ini_word_loop f (lx_advance src l1 1) else Some l1
        end
    end.

  (** [str::to_lowercase] of the text of an identifier, which is ASCII *)
  Definition ascii_lower (s : str) : str := map (fun c => if ((65 <=? c) && (c <=? 90))%Z then (c + 32)%Z else c) s.

  (** lexer/mod.rs:246-290, 332-335 [lex_identifier], [is_datetime_like] *)
  Definition ini_identifier (l : lexer) : option (bool * lexer) :=
    match lx_current src l with
    | (None, l1) => Some (false, l1)
    | (Some ch, l1) =>
        if negb (ascii_alpha_c ch || (ch =? 95)%Z) then Some (false, l1)
        else
          match ini_word_loop (scan_fuel src) (lx_advance src l1 1) with
          | None => None
          | Some l2 =>
              let t := flat_text_in text (lx_pos l) (lx_pos l2) in
              let kind := if existsb (str_eqb (ascii_lower t)) [lit "true"; lit "false"] then IBoolean
                          else if existsb (Z.eqb 45) t && existsb (Z.eqb 58) t then IDateTime else IIdentifier in
              Some (true, add_token l2 kind (lx_pos l) (lx_pos l2))
          end
    end.

  (** lexer/mod.rs:313-321 *)
  Definition ini_punct (ch : Z) : option nat :=
    (if ch =? 123 then Some ILeftBrace else if ch =? 125 then Some IRightBrace else if ch =? 91 then Some ILeftBracket
     else if ch =? 93 then Some IRightBracket else if ch =? 44 then Some IComma else if ch =? 46 then Some IDot
     else if ch =? 61 then Some IEqual else None)%Z.

  (** lexer/mod.rs:293-330 [lex_punctuation] *)
  Definition ini_punctuation (l : lexer) : option (bool * lexer) :=
    match lx_starts_with src l (lit "[[") with
    | None => None
    | Some (true, l1) => let l2 := lx_advance src l1 2 in Some (true, add_token l2 IDoubleLeft (lx_pos l) (lx_pos l2))
    | Some (false, l1) =>
        match lx_starts_with src l1 (lit "]]") with
        | None => None
        | Some (true, l2) => let l3 := lx_advance src l2 2 in Some (true, add_token l3 IDoubleRight (lx_pos l) (lx_pos l3))
        | Some (false, l2) =>
            match lx_current src l2 with
            | (None, l3) => Some (false, l3)
            | (Some ch, l3) =>
                match ini_punct ch with
                | None => Some (false, l3)
                | Some kind => let l4 := lx_advance src l3 (char_len ch) in Some (true, add_token l4 kind (lx_pos l) (lx_pos l4))
                end
            end
        end
    end.

  (** lexer/mod.rs:37-73 [run], 21-28 [lex] *)
  Definition ini_rules : list (lexer -> option (bool * lexer)) :=
    [ini_whitespace; ini_newline; ini_comment; ini_string; ini_number; ini_identifier; ini_punctuation].
  Definition ini_lex : option (list token) := lex_all src (guarded_round src ini_rules) IEof.
End Lexer.

(** ** Parser
    [None] is a panic or that the fuel is used up; the boolean is [Ok] or [Err]. *)

(** lexer/token_type.rs:41-43 *)
Definition ini_ignored (k : nat) : bool := (k =? IWhitespace) || (k =? INewline) || (k =? IComment).

Definition step := pstate -> option (bool * pstate).

(** [a?; b] *)
Definition andthen (a b : step) : step := fun s =>
  match a s with Some (true, s') => b s' | r => r end.

(** parse_top_level.rs:148-152 [skip_trivia]: nothing to do in a settled state, but the loop is there *)
Fixpoint ini_skip_loop (fuel : nat) (s : pstate) : pstate :=
  match fuel with
  | O => s
  | S f => if at_kind s IWhitespace || at_kind s IComment || at_kind s INewline then ini_skip_loop f (bump ini_ignored s) else s
  end.
Definition ini_skip (s : pstate) : pstate := ini_skip_loop (length (ps_toks s)) s.
Definition skip_step : step := fun s => Some (true, ini_skip s).
Definition expect_step (k : nat) : step := fun s => Some (expect ini_ignored k s).
Definition bump_step : step := fun s => Some (true, bump ini_ignored s).
(** an error of the parser's own, with the token index as its offset: parse_top_level.rs:63-65, 83-85, 100-102 *)
Definition fail_step (tag : nat) : step := fun s => Some (false, push_error s tag (ps_index s)).

(** [let checkpoint = state.checkpoint(); …; state.finish_at(checkpoint, kind); Ok(())] *)
Definition ini_node (kind : nat) (body : step) : step := fun s =>
  match body s with
  | Some (true, s') => match finish_at s' (checkpoint s) kind with None => None | Some (_, s2) => Some (true, s2) end
  | r => r
  end.

(** parse_top_level.rs:52-78 [parse_key], the loop *)
Fixpoint key_loop (fuel : nat) (s : pstate) : option (bool * pstate) :=
  match fuel with
  | O => None
  | S f =>
      if at_kind s IIdentifier || at_kind s IString then
        let s1 := ini_skip (bump ini_ignored s) in
        if at_kind s1 IDot then key_loop f (ini_skip (bump ini_ignored s1)) else Some (true, s1)
      else fail_step 1 s
  end.
Definition parse_key (s : pstate) : option (bool * pstate) := ini_node IKey (key_loop (S (length (ps_toks s)))) s.

(** parse_top_level.rs:114-121, 133-140: [while state.not_at_end() && !state.at(close) { item?; skip; comma }] *)
Fixpoint items_loop (fuel : nat) (close : nat) (item : step) (s : pstate) : option (bool * pstate) :=
  match fuel with
  | O => None
  | S f =>
      if ps_not_at_end s && negb (at_kind s close) then
        match item s with
        | Some (true, s1) =>
            let s2 := ini_skip s1 in
            items_loop f close item (if at_kind s2 IComma then ini_skip (bump ini_ignored s2) else s2)
        | r => r
        end
      else Some (true, s)
  end.

(** parse_top_level.rs:107-126, 128-146 [parse_array], [parse_inline_table] *)
Definition parse_items (kind open close : nat) (item : step) (s : pstate) : option (bool * pstate) :=
  ini_node kind (andthen (expect_step open) (andthen skip_step (andthen (items_loop (S (length (ps_toks s))) close item) (expect_step close)))) s.

(** parse_top_level.rs:38-50 [parse_key_value], with [parse_value] given *)
Definition parse_pair (value : step) (s : pstate) : option (bool * pstate) :=
  ini_node IKeyValue (andthen parse_key (andthen skip_step (andthen (expect_step IEqual) (andthen skip_step value)))) s.

(** parse_top_level.rs:80-105 [parse_value] *)
Fixpoint parse_value (fuel : nat) (s : pstate) : option (bool * pstate) :=
  match fuel with
  | O => None
  | S f =>
      ini_node IValue (fun s =>
        match peek_kind s with
        | None => fail_step 2 s
        | Some k =>
            if existsb (Nat.eqb k) [IString; IInteger; IFloat; IBoolean; IDateTime] then bump_step s
            else if k =? ILeftBracket then parse_items IArray ILeftBracket IRightBracket (parse_value f) s
            else if k =? ILeftBrace then parse_items IInlineTable ILeftBrace IRightBrace (parse_pair (parse_value f)) s
            else fail_step 2 s
        end) s
  end.
Definition ini_value (s : pstate) : option (bool * pstate) := parse_value (S (length (ps_toks s))) s.
Definition ini_pair : step := parse_pair ini_value.

(** parse_top_level.rs:27-33: the pairs of a section *)
Fixpoint section_loop (fuel : nat) (s : pstate) : option (bool * pstate) :=
  match fuel with
  | O => None
  | S f =>
      let stop s := at_kind s ILeftBracket || at_kind s IDoubleLeft in
      if ps_not_at_end s && negb (stop s) then
        let s1 := ini_skip s in
        if negb (ps_not_at_end s1) || stop s1 then Some (true, s1)
        else match ini_pair s1 with
             | Some (true, s2) => section_loop f s2
             | r => r
             end
      else Some (true, s)
  end.

(** parse_top_level.rs:11-37 [parse_table] *)
Definition ini_table (s : pstate) : option (bool * pstate) :=
  let double := at_kind s IDoubleLeft in
  ini_node (if double then IArrayOfTables else ITable)
    (andthen (expect_step (if double then IDoubleLeft else ILeftBracket))
      (andthen parse_key
        (andthen (expect_step (if double then IDoubleRight else IRightBracket)) (section_loop (S (length (ps_toks s))))))) s.

(** parser/mod.rs:37-46 *)
Fixpoint root_loop (fuel : nat) (s : pstate) : option (bool * pstate) :=
  match fuel with
  | O => None
  | S f =>
      if ps_not_at_end s then
        let s1 := ini_skip s in
        if negb (ps_not_at_end s1) then Some (true, s1)
        else match (if at_kind s1 ILeftBracket || at_kind s1 IDoubleLeft then ini_table s1 else ini_pair s1) with
             | Some (true, s2) => root_loop f s2
             | r => r
             end
      else Some (true, s)
  end.

(** The result of parsing: a tree or an error, with the diagnostics. *)
Inductive outcome := Tree (root : green) | Failed.

(** parser/mod.rs:35-50 [parse_root_internal] *)
Definition ini_root (s : pstate) : option (outcome * list (nat * nat)) :=
  match root_loop (S (length (ps_toks s))) s with
  | None => None
  | Some (false, s1) => Some (Failed, ps_errs s1)
  | Some (true, s1) =>
      match finish_at s1 (checkpoint s) IRoot with
      | None => None
      | Some ((_, root), s2) => Some (Tree root, ps_errs s2)
      end
  end.

(** parser/mod.rs:28-32 with oak-core parser/mod.rs:77-120: parsing a text in a new session *)
Definition ini_parse (text : str) : option (outcome * list (nat * nat)) :=
  match ini_lex text with
  | None => None
  | Some toks => ini_root (ps_new ini_ignored toks (length text) [])
  end.
