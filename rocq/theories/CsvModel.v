(** Model of the CSV language: examples/oak-csv/src/lexer/mod.rs and parser/parse_top_level.rs. *)
From Verif Require Import Base Utf8 SimdModel CursorModel LexModel TreeModel ParserModel LangModel.

(** lexer/token_type.rs:8-32: the kinds of tokens that are used; [QuotedField], [UnquotedField], [Quote] and
    [EscapedQuote] are not *)
Definition CWhitespace := 0. Definition CNewline := 1. Definition CField := 2. Definition CComma := 5.
Definition CEof := 8. Definition CError := 9.

(** parser/element_type.rs:9-16 *)
Definition ESourceFile := 0. Definition ERecord := 1. Definition EField := 2.

(** lexer/mod.rs:10-14: the separator and the quote *)
Record csv_config := CsvConfig { cs_sep : Z; cs_quote : Z }.

(** lexer/mod.rs:28-30 *)
Definition csv_default : csv_config := CsvConfig 44 34.

Section Lexer.
  Variable (src : source) (cfg : csv_config).

  (** lexer/mod.rs:43-64 [skip_whitespace]; the loop is that of [take_while] *)
  Definition blank_char (c : Z) : bool := ((c =? 32) || (c =? 9))%Z.
  Definition csv_whitespace (l : lexer) : option (bool * lexer) :=
    option_map (token_if CWhitespace l) (lx_take_while src (scan_fuel src) blank_char l).

  (** lexer/mod.rs:67-93 [lex_newline] *)
  Definition csv_newline (l : lexer) : bool * lexer :=
    match lx_current src l with
    | (Some ch, l1) =>
        if (ch =? 13)%Z then
          let l2 := lx_advance src l1 1 in
          let '(next, l3) := lx_current src l2 in
          let l4 := if match next with Some c => (c =? 10)%Z | None => false end then lx_advance src l3 1 else l3 in
          (true, add_token l4 CNewline (lx_pos l) (lx_pos l4))
        else if (ch =? 10)%Z then
          let l2 := lx_advance src l1 1 in (true, add_token l2 CNewline (lx_pos l) (lx_pos l2))
        else (false, l1)
    | (None, l1) => (false, l1)
    end.

  (** lexer/mod.rs:151-169 [lex_comma] *)
  Definition csv_comma (l : lexer) : bool * lexer :=
    match lx_current src l with
    | (Some ch, l1) =>
        if (ch =? cs_sep cfg)%Z then
          let l2 := lx_advance src l1 (char_len ch) in (true, add_token l2 CComma (lx_pos l) (lx_pos l2))
        else (false, l1)
    | (None, l1) => (false, l1)
    end.

  (** lexer/mod.rs:102-117: after the opening quote *)
  Fixpoint quoted_loop (fuel : nat) (l : lexer) : option lexer :=
    match fuel with
    | O => None
    | S f =>
        match lx_current src l with
        | (None, l1) => Some l1
        | (Some ch, l1) =>
            let l2 := lx_advance src l1 (char_len ch) in
            if (ch =? cs_quote cfg)%Z then
              let '(next, l3) := lx_current src l2 in
              if match next with Some c => (c =? cs_quote cfg)%Z | None => false end
              then quoted_loop f (lx_advance src l3 (char_len (cs_quote cfg)))
              else Some l3
            else quoted_loop f l2
        end
    end.

  (** lexer/mod.rs:96-129 [lex_quoted_field] *)
  Definition csv_quoted (l : lexer) : option (bool * lexer) :=
    match lx_current src l with
    | (Some ch, l1) =>
        if (ch =? cs_quote cfg)%Z then
          match quoted_loop (scan_fuel src) (lx_advance src l1 (char_len ch)) with
          | None => None
          | Some l2 => Some (true, add_token l2 CField (lx_pos l) (lx_pos l2))
          end
        else Some (false, l1)
    | (None, l1) => Some (false, l1)
    end.

  (** lexer/mod.rs:132-152 [lex_unquoted_field] *)
  Definition unquoted_char (c : Z) : bool := negb ((c =? cs_sep cfg) || (c =? 10) || (c =? 13))%Z.
  Definition csv_unquoted (l : lexer) : option (bool * lexer) :=
    option_map (token_if CField l) (lx_take_while src (scan_fuel src) unquoted_char l).

  (** lexer/mod.rs:173-201: one round *)
  Definition csv_rule (l : lexer) : option lexer :=
    match csv_whitespace l with
    | None => None
    | Some (true, l1) => Some l1
    | Some (false, l1) =>
        match csv_newline l1 with
        | (true, l2) => Some l2
        | (false, l2) =>
            match csv_comma l2 with
            | (true, l3) => Some l3
            | (false, l3) =>
                match csv_quoted l3 with
                | None => None
                | Some (true, l4) => Some l4
                | Some (false, l4) =>
                    match csv_unquoted l4 with
                    | None => None
                    | Some (true, l5) => Some l5
                    | Some (false, l5) =>
                        match lx_current src l5 with
                        | (Some ch, l6) =>
                            let l7 := lx_advance src l6 (char_len ch) in
                            Some (add_token l7 CError (lx_pos l5) (lx_pos l7))
                        | (None, l6) => Some l6
                        end
                    end
                end
            end
        end
    end.

  (** lexer/mod.rs:17-24, 171-203 *)
  Definition csv_lex : option (list token) := lex_all src csv_rule CEof.
End Lexer.

(** ** Parser *)

(** lexer/token_type.rs:38-40 *)
Definition csv_ignored (k : nat) : bool := k =? CWhitespace.

(** parse_top_level.rs:37-48 [parse_field] *)
Definition parse_field (s : pstate) : option pstate :=
  let cp := checkpoint s in
  option_map snd (finish_at (if at_kind s CField then bump csv_ignored s else s) cp EField).

(** parse_top_level.rs:29-32: the loop of [parse_record] *)
Fixpoint fields_loop (fuel : nat) (s : pstate) : option pstate :=
  match fuel with
  | O => None
  | S f =>
      if at_kind s CComma then
        match parse_field (bump csv_ignored s) with
        | None => None
        | Some s1 => fields_loop f s1
        end
      else Some s
  end.

(** parse_top_level.rs:24-35 [parse_record] *)
Definition parse_record (s : pstate) : option pstate :=
  let cp := checkpoint s in
  match parse_field s with
  | None => None
  | Some s1 =>
      match fields_loop (S (length (ps_toks s1))) s1 with
      | None => None
      | Some s2 => option_map snd (finish_at s2 cp ERecord)
      end
  end.

(** parse_top_level.rs:13-18: the loop of [parse_root_internal] *)
Fixpoint records_loop (fuel : nat) (s : pstate) : option pstate :=
  match fuel with
  | O => None
  | S f =>
      if ps_not_at_end s && negb (at_kind s CEof) then
        match parse_record s with
        | None => None
        | Some s1 => records_loop f (if at_kind s1 CNewline then bump csv_ignored s1 else s1)
        end
      else Some s
  end.

(** parse_top_level.rs:9-21 [parse_root_internal]: the root and the diagnostics *)
Definition csv_root (s : pstate) : option (green * list (nat * nat)) :=
  let cp := checkpoint s in
  match records_loop (S (length (ps_toks s))) s with
  | None => None
  | Some s1 =>
      match finish_at s1 cp ESourceFile with
      | None => None
      | Some ((_, root), s2) => Some (root, ps_errs s2)
      end
  end.

(** parser/mod.rs:25-28 with oak-core parser/mod.rs:77-120: parsing a text in a new session; the parser always
    uses the default separator and quote *)
Definition csv_parse (text : str) : option (green * list (nat * nat)) :=
  match csv_lex (flat_source text) csv_default with
  | None => None
  | Some toks => csv_root (ps_new csv_ignored toks (length text) [])
  end.
