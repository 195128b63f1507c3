(** Model of the XML language: examples/oak-xml/src/lexer/mod.rs, parser/parse_top_level.rs, builder/mod.rs,
    ast/mod.rs ([XmlValue::to_string]) and lib.rs ([parse]).  The source is a [SourceText], the session is new. *)
From Verif Require Import Base Utf8 RopeModel SimdModel CursorModel LexModel TreeModel ParserModel VfsModel LangModel IniModel.

(** lexer/token_type.rs:24-77 *)
Definition XWhitespace := 1. Definition XComment := 3. Definition XText := 4. Definition XError := 5.
Definition XDoctype := 8. Definition XInstruction := 9. Definition XCData := 10. Definition XStringLit := 17.
Definition XLeftAngle := 18. Definition XRightAngle := 19. Definition XLeftAngleSlash := 20. Definition XSlashRightAngle := 21.
Definition XEquals := 22. Definition XQuote := 23. Definition XSingleQuote := 24. Definition XExclamation := 25. Definition XQuestion := 26.
Definition XAmpersand := 27. Definition XSemicolon := 28. Definition XEntity := 29. Definition XCharRef := 30. Definition XIdentifier := 31.

(** parser/element_type.rs:7-18 *)
Definition XRoot := 0. Definition XProlog := 1. Definition XElement := 2. Definition XStartTag := 3. Definition XEndTag := 4.
Definition XSelfClosing := 5. Definition XAttribute := 6.

Definition xml_alnum (c : Z) : bool := ascii_alpha_c c || ascii_digit_c c.
Definition xml_hex (c : Z) : bool := (ascii_digit_c c || ((65 <=? c) && (c <=? 70)) || ((97 <=? c) && (c <=? 102)))%Z.
Definition xml_upper (c : Z) : Z := if ((97 <=? c) && (c <=? 122))%Z then (c - 32)%Z else c.

Section Lexer.
  Variable src : source.

  (** [state.add_token(kind, start_pos, state.get_position()); true] *)
  Definition xml_token (kind : nat) (l l' : lexer) : option (bool * lexer) := Some (true, add_token l' kind (lx_pos l) (lx_pos l')).

  (** lexer/mod.rs:15, 97-99 [skip_whitespace] *)
  Definition xml_whitespace : lexer -> option (bool * lexer) := scan_whitespace src true char_is_whitespace XWhitespace.
  (** lexer/mod.rs:17, 101-103 [lex_comment] *)
  Definition xml_comment : lexer -> option (bool * lexer) := scan_comment src (CommentConfig [] (lit "<!--") (lit "-->") false) XComment XComment.

  (** lexer/mod.rs:111-124, 174-188: [for (i, expected_ch) in ….chars().enumerate()] over [peek_next_n(from + i)];
      [fold] is [to_ascii_uppercase] or nothing *)
  Fixpoint peek_all (l : lexer) (fold : Z -> Z) (from : nat) (expected : list Z) : bool :=
    match expected with
    | [] => true
    | e :: r => match peek_next_n src (lx_cur l) from with
                | Some c => (fold c =? e)%Z && peek_all l fold (S from) r
                | None => false
                end
    end.

  (** lexer/mod.rs:129-156: the inside of a document type; the level of brackets is an [i32] in the code, unbounded
      here (a text of less than 2 GiB does not overflow it).  The boolean tells whether the end was found. *)
  Fixpoint doctype_loop (fuel : nat) (depth : Z) (l : lexer) : option (bool * lexer) :=
    match fuel with
    | O => None
    | S f =>
        if not_at_end src l then
          match lx_current src l with
          | (None, l1) => Some (false, l1)
          | (Some ch, l1) =>
              if (ch =? 91)%Z then doctype_loop f (depth + 1)%Z (lx_advance src l1 1)
              else if (ch =? 93)%Z then doctype_loop f (depth - 1)%Z (lx_advance src l1 1)
              else if (ch =? 62)%Z then
                if (depth =? 0)%Z then Some (true, lx_advance src l1 1) else doctype_loop f depth (lx_advance src l1 1)
              else doctype_loop f depth (lx_advance src l1 (char_len ch))
          end
        else Some (false, l)
    end.

  (** lexer/mod.rs:105-166 [lex_doctype] *)
  Definition xml_doctype (l : lexer) : option (bool * lexer) :=
    let '(ch, l1) := lx_current src l in
    if is_char 60 ch && is_char 33 (peek_next_n src (lx_cur l1) 1) && peek_all l1 xml_upper 2 (lit "DOCTYPE") then
      match doctype_loop (scan_fuel src) 0 (lx_advance src l1 9) with
      | None => None
      | Some (closed, l2) => xml_token (if closed then XDoctype else XError) l l2
      end
    else Some (false, l1).

  (** lexer/mod.rs:193-210, 230-245: [while state.not_at_end()]: stop behind [e0 :: e]; the character is read once *)
  Fixpoint until_loop (e0 : Z) (e : list Z) (fuel : nat) (l : lexer) : option (bool * lexer) :=
    match fuel with
    | O => None
    | S f =>
        if not_at_end src l then
          match lx_current src l with
          | (None, l1) => Some (false, l1)
          | (Some ch, l1) =>
              if (ch =? e0)%Z && peek_all l1 (fun c => c) 1 e then Some (true, lx_advance src l1 (S (length e)))
              else until_loop e0 e f (lx_advance src l1 (char_len ch))
          end
        else Some (false, l)
    end.

  (** lexer/mod.rs:168-221 [lex_cdata] *)
  Definition xml_cdata (l : lexer) : option (bool * lexer) :=
    let '(ch, l1) := lx_current src l in
    if is_char 60 ch && is_char 33 (peek_next_n src (lx_cur l1) 1) && is_char 91 (peek_next_n src (lx_cur l1) 2) && peek_all l1 (fun c => c) 3 (lit "CDATA[") then
      match until_loop 93 (lit "]>") (scan_fuel src) (lx_advance src l1 9) with
      | None => None
      | Some (closed, l2) => xml_token (if closed then XCData else XError) l l2
      end
    else Some (false, l1).

  (** lexer/mod.rs:223-254 [lex_processing_instruction] *)
  Definition xml_instruction (l : lexer) : option (bool * lexer) :=
    let '(ch, l1) := lx_current src l in
    if is_char 60 ch && is_char 63 (peek_next_n src (lx_cur l1) 1) then
      match until_loop 63 (lit ">") (scan_fuel src) (lx_advance src l1 2) with
      | None => None
      | Some (closed, l2) => xml_token (if closed then XInstruction else XError) l l2
      end
    else Some (false, l1).

  (** lexer/mod.rs:256-293 [lex_tag_start] *)
  Definition xml_tag (l : lexer) : option (bool * lexer) :=
    match lx_current src l with
    | (None, l1) => Some (false, l1)
    | (Some ch, l1) =>
        if (ch =? 60)%Z then
          let '(next, l2) := lx_current src (lx_advance src l1 1) in
          if is_char 47 next then xml_token XLeftAngleSlash l (lx_advance src l2 1) else xml_token XLeftAngle l l2
        else if (ch =? 47)%Z then
          if is_char 62 (peek_next_n src (lx_cur l1) 1) then xml_token XSlashRightAngle l (lx_advance src l1 2) else Some (false, l1)
        else if (ch =? 62)%Z then xml_token XRightAngle l (lx_advance src l1 1)
        else if (ch =? 61)%Z then xml_token XEquals l (lx_advance src l1 1)
        else Some (false, l1)
    end.

  (** lexer/mod.rs:309-317, 321-329, 341-349, then 332-336, 351-360: a run of characters of a class and a semicolon; the class
      is one of ASCII, so that a step is one byte *)
  Definition reference_end (kind : nat) (p : Z -> bool) (l l1 : lexer) : option (bool * lexer) :=
    match lx_take_while src (scan_fuel src) p l1 with
    | None => None
    | Some l2 =>
        let '(ch, l3) := lx_current src l2 in
        if lx_moved l1 l2 && is_char 59 ch then xml_token kind l (lx_advance src l3 1) else xml_token XError l l3
    end.

  (** lexer/mod.rs:295-364 [lex_entity_reference] *)
  Definition xml_reference (l : lexer) : option (bool * lexer) :=
    let '(ch, l1) := lx_current src l in
    if is_char 38 ch then
      let '(ch2, l2) := lx_current src (lx_advance src l1 1) in
      if is_char 35 ch2 then
        let '(ch3, l3) := lx_current src (lx_advance src l2 1) in
        if is_char 120 ch3 then reference_end XCharRef xml_hex l (lx_advance src l3 1) else reference_end XCharRef ascii_digit_c l l3
      else reference_end XEntity xml_alnum l l2
    else Some (false, l1).

  (** lexer/mod.rs:19, 366-368 [lex_string_literal] *)
  Definition xml_string : lexer -> option (bool * lexer) := scan_string src [34; 39]%Z None XStringLit.

  (** lexer/mod.rs:370-392 [lex_identifier_or_tag_name] *)
  Definition xml_name_start (c : Z) : bool := ascii_alpha_c c || (c =? 95)%Z || (c =? 58)%Z.
  Definition xml_name_char (c : Z) : bool := xml_alnum c || (c =? 95)%Z || (c =? 45)%Z || (c =? 46)%Z || (c =? 58)%Z.
  Definition xml_identifier (l : lexer) : option (bool * lexer) :=
    match lx_current src l with
    | (None, l1) => Some (false, l1)
    | (Some ch, l1) =>
        if xml_name_start ch then
          match lx_take_while src (scan_fuel src) xml_name_char (lx_advance src l1 (char_len ch)) with
          | None => None
          | Some l2 => xml_token XIdentifier l l2
          end
        else Some (false, l1)
    end.

  (** lexer/mod.rs:394-430 [lex_single_char_tokens] *)
  Definition xml_mark (c : Z) : option nat :=
    (if c =? 34 then Some XQuote else if c =? 39 then Some XSingleQuote else if c =? 33 then Some XExclamation else if c =? 63 then Some XQuestion
     else if c =? 38 then Some XAmpersand else if c =? 59 then Some XSemicolon else None)%Z.
  Definition xml_single (l : lexer) : option (bool * lexer) :=
    match lx_current src l with
    | (None, l1) => Some (false, l1)
    | (Some ch, l1) => match xml_mark ch with Some k => xml_token k l (lx_advance src l1 1) | None => Some (false, l1) end
    end.

  (** lexer/mod.rs:432-452 [lex_text] *)
  Definition xml_stops : list Z := [32; 9; 10; 13; 60; 62; 61; 34; 39; 33; 63; 38; 59]%Z.
  Definition xml_text (l : lexer) : option (bool * lexer) :=
    option_map (token_if XText l) (lx_take_while src (scan_fuel src) (fun c => negb (existsb (Z.eqb c) xml_stops)) l).

  (** lexer/mod.rs:42-95 [run] *)
  Definition xml_rules : list (lexer -> option (bool * lexer)) :=
    [xml_whitespace; xml_comment; xml_doctype; xml_cdata; xml_instruction; xml_tag; xml_reference; xml_string; xml_identifier; xml_single; xml_text].
End Lexer.

(** lexer/mod.rs:21-31 [lex]; [END_OF_STREAM] is [Error] (lexer/token_type.rs:9) *)
Definition xml_lex (text : str) : option (list token) :=
  let src := flat_source text in lex_all src (guarded_round src (xml_rules src)) XError.

(** ** Parser: [None] is a panic or that the fuel is used up; the boolean is [Ok] or [Err]. *)

(** lexer/token_type.rs:11-13 [is_ignored] *)
Definition xml_ignored (k : nat) : bool := false.

(** parse_top_level.rs:125-135 [skip_trivia] *)
Fixpoint xml_skip_loop (fuel : nat) (s : pstate) : pstate :=
  match fuel with
  | O => s
  | S f => match ps_current s with
           | Some t => if xml_ignored (tk_kind t) then xml_skip_loop f (bump xml_ignored s) else s
           | None => s
           end
  end.
Definition xml_skip (s : pstate) : pstate := xml_skip_loop (length (ps_toks s)) s.
Definition xml_skip_step : step := fun s => Some (true, xml_skip s).
Definition xml_expect (k : nat) : step := fun s => Some (expect xml_ignored k s).

(** [let checkpoint = state.checkpoint(); …; state.finish_at(checkpoint, kind); Ok(())] *)
Definition xml_node (kind : nat) (body : step) : step := fun s =>
  match body s with
  | Some (true, s') => match finish_at s' (checkpoint s) kind with None => None | Some (_, s2) => Some (true, s2) end
  | r => r
  end.

(** parse_top_level.rs:114-123 [parse_attribute] *)
Definition xml_attribute : step :=
  xml_node XAttribute (andthen (xml_expect XIdentifier) (andthen xml_skip_step (andthen (xml_expect XEquals)
    (andthen xml_skip_step (xml_expect XStringLit))))).

(** parse_top_level.rs:38-46, 64-72: [while state.not_at_end() && !stop { skip_trivia; if at Identifier { parse_attribute? } else { break } }] *)
Fixpoint attributes_loop (stops : list nat) (fuel : nat) (s : pstate) : option (bool * pstate) :=
  match fuel with
  | O => None
  | S f =>
      if ps_not_at_end s && negb (existsb (at_kind s) stops) then
        let s1 := xml_skip s in
        if at_kind s1 XIdentifier then
          match xml_attribute s1 with Some (true, s2) => attributes_loop stops f s2 | r => r end
        else Some (true, s1)
      else Some (true, s)
  end.
Definition xml_attributes (stops : list nat) : step := fun s => attributes_loop stops (S (length (ps_toks s))) s.

(** parse_top_level.rs:32-53 [parse_prolog] *)
Definition xml_prolog : step :=
  xml_node XProlog (andthen (xml_expect XLeftAngle) (andthen (xml_expect XQuestion) (andthen (xml_expect XIdentifier)
    (andthen (xml_attributes [XQuestion]) (andthen xml_skip_step (andthen (xml_expect XQuestion) (xml_expect XRightAngle))))))).

(** parse_top_level.rs:88-99: the content of an element; [state.advance()] passes a token without a leaf *)
Fixpoint content_loop (element : step) (fuel : nat) (s : pstate) : option (bool * pstate) :=
  match fuel with
  | O => None
  | S f =>
      if ps_not_at_end s then
        let s1 := xml_skip s in
        if at_kind s1 XLeftAngleSlash then Some (true, s1)
        else if at_kind s1 XLeftAngle then
          match element s1 with Some (true, s2) => content_loop element f s2 | r => r end
        else content_loop element f (ps_advance xml_ignored s1)
      else Some (true, s)
  end.

(** parse_top_level.rs:55-112 [parse_element] *)
Fixpoint parse_element (fuel : nat) (s : pstate) : option (bool * pstate) :=
  match fuel with
  | O => None
  | S f =>
      xml_node XElement (fun s =>
        let head := andthen (xml_expect XLeftAngle) (andthen xml_skip_step (andthen (xml_expect XIdentifier)
                      (andthen (xml_attributes [XRightAngle; XSlashRightAngle]) xml_skip_step))) in
        match head s with
        | Some (true, s1) =>
            if at_kind s1 XSlashRightAngle then xml_node XSelfClosing (xml_expect XSlashRightAngle) s1
            else
              match xml_expect XRightAngle s1 with
              | Some (true, s2) =>
                  match finish_at s2 (checkpoint s) XStartTag with
                  | None => None
                  | Some (_, s3) =>
                      match content_loop (parse_element f) (S (length (ps_toks s3))) s3 with
                      | Some (true, s4) =>
                          xml_node XEndTag (andthen (xml_expect XLeftAngleSlash) (andthen xml_skip_step
                            (andthen (xml_expect XIdentifier) (andthen xml_skip_step (xml_expect XRightAngle))))) s4
                      | r => r
                      end
                  end
              | r => r
              end
        | r => r
        end) s
  end.
Definition xml_element : step := fun s => parse_element (S (length (ps_toks s))) s.

(** parse_top_level.rs:19-27 *)
Fixpoint xml_root_loop (fuel : nat) (s : pstate) : option (bool * pstate) :=
  match fuel with
  | O => None
  | S f =>
      if ps_not_at_end s then
        let s1 := xml_skip s in
        if at_kind s1 XLeftAngle then
          match xml_element s1 with Some (true, s2) => xml_root_loop f s2 | r => r end
        else xml_root_loop f (if ps_not_at_end s1 then ps_advance xml_ignored s1 else s1)
      else Some (true, s)
  end.

(** parse_top_level.rs:11-29 [parse_root_internal]; [peek_kind_at(1)] looks at the next token *)
Definition xml_body : step := fun s =>
  let s1 := xml_skip s in
  let prolog := at_kind s1 XLeftAngle && match nth_error (ps_toks s1) (ps_index s1 + 1) with Some t => tk_kind t =? XQuestion | None => false end in
  match (if prolog then xml_prolog s1 else Some (true, s1)) with
  | Some (true, s2) => xml_root_loop (S (length (ps_toks s2))) s2
  | r => r
  end.
Definition xml_root (s : pstate) : option (outcome * list (nat * nat)) :=
  match xml_body s with
  | None => None
  | Some (false, s1) => Some (Failed, ps_errs s1)
  | Some (true, s1) =>
      match finish_at s1 (checkpoint s) XRoot with
      | None => None
      | Some ((_, root), s2) => Some (Tree root, ps_errs s2)
      end
  end.

(** parser/mod.rs:23-28 with oak-core parser/mod.rs:77-120: parsing a text in a new session *)
Definition xml_parse (text : str) : option (outcome * list (nat * nat)) :=
  match xml_lex text with
  | None => None
  | Some toks => xml_root (ps_new xml_ignored toks (length text) [])
  end.

(** ** Values *)

(** ast/mod.rs:39-46 [XmlAttribute]: name, value, span *)
Record xattr := XAttr { xa_name : str; xa_value : str; xa_span : nat * nat }.

(** ast/mod.rs:18-55 [XmlValue] with [XmlElement] and [XmlPI] *)
Inductive xvalue :=
| VElement (name : str) (attributes : list xattr) (children : list xvalue) (span : nat * nat)
| VText (t : str)
| VComment (c : str)
| VCData (d : str)
| VInstruction (target : str) (data : option str) (span : nat * nat)
| VFragment (fs : list xvalue).

(** ast/mod.rs:72-112 [XmlValue::to_string] *)
Fixpoint xml_to_string (v : xvalue) : str :=
  match v with
  | VText t => t
  | VComment c => lit "<!--" ++ c ++ lit "-->"
  | VCData d => lit "<![CDATA[" ++ d ++ lit "]]>"
  | VInstruction target (Some data) _ => lit "<?" ++ target ++ lit " " ++ data ++ lit "?>"
  | VInstruction target None _ => lit "<?" ++ target ++ lit "?>"
  | VFragment fs => concat (map xml_to_string fs)
  | VElement name attributes children _ =>
      lit "<" ++ name ++ concat (map (fun a => lit " " ++ xa_name a ++ lit "=""" ++ xa_value a ++ lit """") attributes) ++
      match children with
      | [] => lit "/>"
      | _ => lit ">" ++ concat (map xml_to_string children) ++ lit "</" ++ name ++ lit ">"
      end
  end.

(** ** Builder: builder/mod.rs *)
Section Builder.
  Variable source : str.

  (** builder/mod.rs:99-132 [build_attribute], the loop; [raw[1..raw.len() - 1]] panics off a character boundary *)
  Fixpoint attribute_parts (ch : list green) (off : nat) (name value : str) : option (str * str) :=
    match ch with
    | [] => Some (name, value)
    | GLeaf k n _ :: r =>
        let raw := flat_text_in source off (off + n) in
        if k =? XIdentifier then attribute_parts r (off + n) raw value
        else if k =? XStringLit then
          if 2 <=? length raw then
            match str_get raw 1 (length raw - 1) with
            | None => None
            | Some v => attribute_parts r (off + n) name v
            end
          else attribute_parts r (off + n) name raw
        else attribute_parts r (off + n) name value
    | GNode _ n _ :: r => attribute_parts r (off + n) name value
    end.

  (** builder/mod.rs:59-74: the parts of a start tag or self-closing tag *)
  Fixpoint tag_parts (ch : list green) (off : nat) (name : str) (attrs : list xattr) : option (str * list xattr) :=
    match ch with
    | [] => Some (name, attrs)
    | GLeaf k n _ :: r => tag_parts r (off + n) (if k =? XIdentifier then flat_text_in source off (off + n) else name) attrs
    | GNode k n sub :: r =>
        if k =? XAttribute then
          match attribute_parts sub off [] [] with
          | None => None
          | Some (an, av) => tag_parts r (off + n) name (attrs ++ [XAttr an av (off, off + n)])
          end
        else tag_parts r (off + n) name attrs
    end.

  (** builder/mod.rs:49-97 [build_element] *)
  Fixpoint build_element (node : green) (offset : nat) : option xvalue :=
    match node with
    | GLeaf _ _ _ => None
    | GNode _ len ch =>
        match (fix go (l : list green) (off : nat) (name : str) (attrs : list xattr) (kids : list xvalue) : option (str * list xattr * list xvalue) :=
                 match l with
                 | [] => Some (name, attrs, kids)
                 | c :: r =>
                     match c with
                     | GNode k n sub =>
                         if (k =? XStartTag) || (k =? XSelfClosing) then
                           match tag_parts sub off name attrs with
                           | None => None
                           | Some (name', attrs') => go r (off + n) name' attrs' kids
                           end
                         else if k =? XElement then
                           match build_element c off with
                           | None => None
                           | Some v => go r (off + n) name attrs (kids ++ [v])
                           end
                         else go r (off + n) name attrs kids
                     | GLeaf k n _ =>
                         let t := flat_text_in source off (off + n) in
                         go r (off + n) name attrs
                           (if (k =? XText) && negb (forallb char_is_whitespace (chars t)) then kids ++ [VText t] else kids)
                     end
                 end) ch offset [] [] [] with
        | None => None
        | Some (name, attrs, kids) => Some (VElement name attrs kids (offset, offset + len))
        end
    end.

  (** builder/mod.rs:20-42 [build_root], the loop *)
  Fixpoint root_elements (ch : list green) (off : nat) : option (list xvalue) :=
    match ch with
    | [] => Some []
    | GLeaf _ n _ :: r => root_elements r (off + n)
    | GNode k n sub :: r =>
        if k =? XElement then
          match build_element (GNode k n sub) off with
          | None => None
          | Some v => option_map (cons v) (root_elements r (off + n))
          end
        else root_elements r (off + n)
    end.

  (** builder/mod.rs:44-46: the first element, or an empty text *)
  Definition build_root (root : green) : option xvalue :=
    match root with
    | GLeaf _ _ _ => None
    | GNode _ _ ch => option_map (fun vs => match vs with v :: _ => v | [] => VText [] end) (root_elements ch 0)
    end.
End Builder.

(** lib.rs:62-70 [parse] with builder/mod.rs:135-152: [Some None] is [Err], [None] a panic *)
Definition xml_value (text : str) : option (option xvalue) :=
  match xml_parse text with
  | None => None
  | Some (Failed, _) => Some None
  | Some (Tree root, _) => option_map Some (build_root text root)
  end.
