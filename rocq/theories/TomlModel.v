(** Model of the TOML language: examples/oak-toml/src/lexer/mod.rs and parser/mod.rs. *)
From Verif Require Import Base Utf8 RopeModel SimdModel CursorModel LexModel TreeModel ParserModel LangModel.

(** lexer/token_type.rs:8-42: the kinds that are used; the dates, [Newline], [String], [Identifier] and [Error] are not.
    The elements are the same type (parser/element_type.rs:4). *)
Definition TWhitespace := 0. Definition TComment := 2. Definition TBasic := 4. Definition TLiteral := 5.
Definition TInteger := 6. Definition TFloat := 7. Definition TBoolean := 8. Definition TBareKey := 14.
Definition TEqual := 15. Definition TDot := 16. Definition TComma := 17. Definition TLBrace := 18. Definition TRBrace := 19.
Definition TLBracket := 20. Definition TRBracket := 21. Definition TLL := 22. Definition TRR := 23.
Definition TEof := 25. Definition TRoot := 26.

Section Lexer.
  Variable (src : source).
  (** [get_text_in] of the source *)
  Variable (slice : nat -> nat -> str).

  (** [while state.current().map_or(false, p) { state.advance(1) }]: lexer/mod.rs:74-81, 181-183, 190-192, 276-278.  The step is
      one byte, whatever the character. *)
  Fixpoint take_bytes (p : Z -> bool) (fuel : nat) (l : lexer) : option lexer :=
    match fuel with
    | O => None
    | S f =>
        match lx_current src l with
        | (Some ch, l1) => if p ch then take_bytes p f (lx_advance src l1 1) else Some l1
        | (None, l1) => Some l1
        end
    end.

  (** lexer/mod.rs:71-90 [skip_whitespace]; the answer of the rules is not used *)
  Definition toml_blank (c : Z) : bool := ((c =? 32) || (c =? 9) || (c =? 10) || (c =? 13))%Z.
  Definition toml_whitespace (l : lexer) : option lexer :=
    option_map (fun l' => snd (token_if TWhitespace l l')) (take_bytes toml_blank (scan_fuel src) l).

  (** lexer/mod.rs:93-113 [skip_comment] where the first character is [#]; the loop is that of [take_while] *)
  Definition toml_comment (l : lexer) : option lexer :=
    option_map (fun l' => add_token l' TComment (lx_pos l) (lx_pos l'))
      (lx_take_while src (scan_fuel src) (fun c => negb ((c =? 10) || (c =? 13)))%Z (lx_advance src l 1)).

  (** lexer/mod.rs:123-137 and 148-154: after the opening quote; [escape] is the backslash for basic strings *)
  Fixpoint toml_string_loop (q : Z) (escape : bool) (fuel : nat) (l : lexer) : option lexer :=
    match fuel with
    | O => None
    | S f =>
        match lx_current src l with
        | (None, l1) => Some l1
        | (Some ch, l1) =>
            if (ch =? q)%Z then Some (lx_advance src l1 1)
            else
              let l2 := lx_advance src l1 1 in
              if escape && (ch =? 92)%Z then
                let '(next, l3) := lx_current src l2 in
                toml_string_loop q escape f (match next with Some _ => lx_advance src l3 1 | None => l3 end)
              else toml_string_loop q escape f l2
        end
    end.
  (** lexer/mod.rs:116-164 [lex_string] where the first character is the quote *)
  Definition toml_string (q : Z) (escape : bool) (kind : nat) (l : lexer) : option lexer :=
    option_map (fun l' => add_token l' kind (lx_pos l) (lx_pos l')) (toml_string_loop q escape (scan_fuel src) (lx_advance src l 1)).

  (** lexer/mod.rs:167-199 [lex_number] *)
  Definition toml_digit (c : Z) : bool := ((48 <=? c) && (c <=? 57))%Z.
  Definition toml_sign (c : Z) : bool := ((c =? 45) || (c =? 43))%Z.
  Definition here (p : Z -> bool) (l : lexer) : bool * lexer :=
    let '(c, l1) := lx_current src l in (match c with Some c => p c | None => false end, l1).
  Definition toml_number (l : lexer) : option lexer :=
    let '(sign, l1) := here toml_sign l in
    match take_bytes toml_digit (scan_fuel src) (if sign then lx_advance src l1 1 else l1) with
    | None => None
    | Some l2 =>
        let '(dot, l3) := here (Z.eqb 46) l2 in
        match (if dot then take_bytes toml_digit (scan_fuel src) (lx_advance src l3 1) else Some l3) with
        | None => None
        | Some l4 => Some (add_token l4 (if dot then TFloat else TInteger) (lx_pos l) (lx_pos l4))
        end
    end.

  (** lexer/mod.rs:202-262 [lex_punctuation]; [None] where it answers false *)
  Definition toml_doubled (c : Z) (one two : nat) (l : lexer) : lexer :=
    let '(again, l2) := here (Z.eqb c) (lx_advance src l 1) in
    if again then let l3 := lx_advance src l2 1 in add_token l3 two (lx_pos l) (lx_pos l3)
    else add_token l2 one (lx_pos l) (lx_pos l2).
  Definition toml_single (kind : nat) (l : lexer) : lexer :=
    let l2 := lx_advance src l 1 in add_token l2 kind (lx_pos l) (lx_pos l2).
  Definition toml_punctuation (ch : Z) (l : lexer) : option lexer :=
    if (ch =? 91)%Z then Some (toml_doubled 91 TLBracket TLL l)
    else if (ch =? 93)%Z then Some (toml_doubled 93 TRBracket TRR l)
    else if (ch =? 123)%Z then Some (toml_single TLBrace l)
    else if (ch =? 125)%Z then Some (toml_single TRBrace l)
    else if (ch =? 44)%Z then Some (toml_single TComma l)
    else if (ch =? 46)%Z then Some (toml_single TDot l)
    else if (ch =? 61)%Z then Some (toml_single TEqual l)
    else None.

  (** lexer/mod.rs:265-290 [lex_identifier] *)
  Definition toml_letter (c : Z) : bool := ((97 <=? c) && (c <=? 122) || (65 <=? c) && (c <=? 90) || (c =? 95))%Z.
  Definition toml_word (c : Z) : bool := (toml_letter c || toml_digit c || (c =? 45)%Z).
  Definition is_text (a b : str) : bool := if list_eq_dec Z.eq_dec a b then true else false.
  Definition toml_identifier (l : lexer) : option lexer :=
    option_map (fun l' =>
      let t := slice (lx_pos l) (lx_pos l') in
      add_token l' (if is_text t (lit "true") || is_text t (lit "false") then TBoolean else TBareKey) (lx_pos l) (lx_pos l'))
      (take_bytes toml_word (scan_fuel src) l).

  (** lexer/mod.rs:37-64: the arms of the match.  The arm of the brackets is that of [_], which always succeeds for them. *)
  Definition toml_arm (ch : Z) (l : lexer) : option lexer :=
    if toml_blank ch then toml_whitespace l
    else if (ch =? 35)%Z then toml_comment l
    else if (ch =? 34)%Z then toml_string 34 true TBasic l
    else if (ch =? 39)%Z then toml_string 39 false TLiteral l
    else if toml_digit ch || toml_sign ch then toml_number l
    else if toml_letter ch then toml_identifier l
    else match toml_punctuation ch l with
         | Some l' => Some l'
         | None => Some (lx_advance src l 1)
         end.

  (** lexer/mod.rs:35-69 [run] *)
  Fixpoint toml_run (fuel : nat) (l : lexer) : option lexer :=
    match fuel with
    | O => None
    | S f =>
        if not_at_end src l then
          match lx_current src l with
          | (None, l1) => Some l1
          | (Some ch, l1) => match toml_arm ch l1 with None => None | Some l2 => toml_run f l2 end
          end
        else Some l
    end.

  (** lexer/mod.rs:19-26 [lex] *)
  Definition toml_lex : option (list token) :=
    match toml_run (scan_fuel src) (new_lexer src) with
    | None => None
    | Some l => Some (lx_toks (add_eof l TEof))
    end.
End Lexer.

(** ** Parser *)

(** lexer/token_type.rs:48-53 with oak-core language/mod.rs: white space and comments *)
Definition toml_ignored (k : nat) : bool := (k =? TWhitespace) || (k =? TComment).

(** parser/mod.rs:25-27 *)
Fixpoint toml_loop (fuel : nat) (s : pstate) : option pstate :=
  match fuel with
  | O => None
  | S f => match ps_current s with Some _ => toml_loop f (bump toml_ignored s) | None => Some s end
  end.

(** parser/mod.rs:19-32 without a previous tree: the root and the diagnostics *)
Definition toml_parse_tokens (toks : list token) (len : nat) : option (green * list (nat * nat)) :=
  let s := ps_new toml_ignored toks len [] in
  match toml_loop (S (length toks)) s with
  | None => None
  | Some s1 => match finish_at s1 (checkpoint s) TRoot with None => None | Some ((_, root), s2) => Some (root, ps_errs s2) end
  end.
Definition toml_parse (text : str) : option (green * list (nat * nat)) :=
  match toml_lex (flat_source text) (flat_text_in text) with
  | None => None
  | Some toks => toml_parse_tokens toks (length text)
  end.
