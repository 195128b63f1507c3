(** Model of the language of regular expressions: examples/oak-regex/src/lexer/lex.rs, parser/mod.rs and builder/mod.rs.
    The source is a [SourceText], the session is new. *)
From Verif Require Import Base Utf8 RopeModel CursorModel LexModel TreeModel ParserModel LangModel.
From Verif Require Import IniModel.

(** lexer/token_type.rs:12-57, and parser/element_type.rs:9-54 with the same numbers *)
Definition REof := 1. Definition RPattern := 2. Definition RPipe := 3. Definition RQuestion := 4. Definition RStar := 5.
Definition RPlus := 6. Definition RLBrace := 7. Definition RRBrace := 8. Definition RComma := 9. Definition RLParen := 10.
Definition RRParen := 11. Definition RLBrack := 12. Definition RRBrack := 13. Definition RHat := 14. Definition RDash := 15.
Definition RDollar := 16. Definition RDot := 17. Definition RBackslash := 18. Definition RCharacter := 20. Definition RDigit := 21.
Definition RWhitespace := 22. Definition RComment := 23. Definition RError := 24.

Section Lexer.
  Variable text : str.
  Let src := flat_source text.

  (** [state.advance(n); state.add_token(kind, start, state.get_position())] where [start] is the current position *)
  Definition rx_take (kind n : nat) (l : lexer) : lexer :=
    let l' := lx_advance src l n in add_token l' kind (lx_pos l) (lx_pos l').

  (** lex.rs:60-65 with mod.rs:96-98 *)
  Definition rx_whitespace (l : lexer) : option (bool * lexer) := scan_whitespace src true char_is_whitespace RWhitespace l.

  (** lex.rs:68-85 [skip_comment] *)
  Definition rx_comment (l : lexer) : option (bool * lexer) :=
    match lx_starts_with src l (lit "#") with
    | None => None
    | Some (false, l1) => Some (false, l1)
    | Some (true, l1) =>
        match lx_take_while src (scan_fuel src) (fun c => negb (c =? 10)%Z) (lx_advance src l1 1) with
        | None => None
        | Some l2 => Some (true, add_token l2 RComment (lx_pos l) (lx_pos l2))
        end
    end.

  (** lex.rs:106-128: the members of a class; the boolean says that it is closed *)
  Fixpoint rx_class_loop (fuel : nat) (l : lexer) : option (bool * lexer) :=
    match fuel with
    | O => None
    | S f =>
        match lx_current src l with
        | (None, l1) => Some (false, l1)
        | (Some c, l1) =>
            if (c =? 93)%Z then Some (true, rx_take RRBrack 1 l1)
            else if (c =? 92)%Z then
              match lx_current src (rx_take RBackslash 1 l1) with
              | (Some nc, l2) => rx_class_loop f (rx_take RCharacter (char_len nc) l2)
              | (None, l2) => rx_class_loop f l2
              end
            else rx_class_loop f (rx_take RCharacter (char_len c) l1)
        end
    end.
  (** lex.rs:88-132 [lex_character_class] *)
  Definition rx_class (l : lexer) : option (bool * lexer) :=
    let '(ch, l1) := lx_current src l in
    if is_char 91 ch then
      let '(hat, l2) := lx_current src (rx_take RLBrack 1 l1) in
      match rx_class_loop (scan_fuel src) (if is_char 94 hat then rx_take RHat 1 l2 else l2) with
      | None => None
      | Some (true, l3) => Some (true, l3)
      | Some (false, l3) => Some (true, add_token l3 RError (lx_pos l) (lx_pos l3))
      end
    else Some (false, l1).

  (** lex.rs:156-176: the inside of a counted quantifier; the boolean says that it is closed *)
  Fixpoint rx_count_loop (fuel : nat) (l : lexer) : option (bool * lexer) :=
    match fuel with
    | O => None
    | S f =>
        match lx_current src l with
        | (None, l1) => Some (false, l1)
        | (Some c, l1) =>
            if (c =? 125)%Z then Some (true, rx_take RRBrace 1 l1)
            else if ascii_digit_c c then rx_count_loop f (rx_take RDigit 1 l1)
            else if (c =? 44)%Z then rx_count_loop f (rx_take RComma 1 l1)
            else Some (false, l1)
        end
    end.
  (** lex.rs:135-182 [lex_quantifier] *)
  Definition rx_quantifier (l : lexer) : option (bool * lexer) :=
    let '(ch, l1) := lx_current src l in
    if is_char 42 ch then Some (true, rx_take RStar 1 l1)
    else if is_char 43 ch then Some (true, rx_take RPlus 1 l1)
    else if is_char 63 ch then Some (true, rx_take RQuestion 1 l1)
    else if is_char 123 ch then
      match rx_count_loop (scan_fuel src) (rx_take RLBrace 1 l1) with
      | None => None
      | Some (true, l2) => Some (true, l2)
      | Some (false, l2) => Some (true, add_token l2 RError (lx_pos l) (lx_pos l2))
      end
    else Some (false, l1).

  (** lex.rs:185-198 [lex_group], 201-216 [lex_assertion], 236-244 [lex_special], 261-269 [lex_operator]: one character *)
  Definition rx_marks (marks : list (Z * nat)) (l : lexer) : option (bool * lexer) :=
    let '(ch, l1) := lx_current src l in
    match ch with
    | None => Some (false, l1)
    | Some c => match find (fun m => (c =? fst m)%Z) marks with Some m => Some (true, rx_take (snd m) 1 l1) | None => Some (false, l1) end
    end.
  Definition rx_group := rx_marks [(40%Z, RLParen); (41%Z, RRParen)].
  Definition rx_assertion := rx_marks [(94%Z, RHat); (36%Z, RDollar)].
  Definition rx_special := rx_marks [(46%Z, RDot)].
  Definition rx_operator := rx_marks [(124%Z, RPipe)].

  (** lex.rs:219-233 [lex_escape] *)
  Definition rx_escape (l : lexer) : option (bool * lexer) :=
    let '(ch, l1) := lx_current src l in
    if is_char 92 ch then
      match lx_current src (rx_take RBackslash 1 l1) with
      | (Some c, l2) => Some (true, rx_take RCharacter (char_len c) l2)
      | (None, l2) => Some (true, l2)
      end
    else Some (false, l1).

  (** lex.rs:247-258 [lex_character], with 271-277 *)
  Definition rx_literal (c : Z) : bool := negb (existsb (Z.eqb c) (lit "|*+?{},.^$[(){\")).
  Definition rx_character (l : lexer) : option (bool * lexer) :=
    match lx_current src l with
    | (None, l1) => Some (false, l1)
    | (Some c, l1) => if rx_literal c then Some (true, rx_take RCharacter (char_len c) l1) else Some (false, l1)
    end.

  (** lex.rs:11-57 [run] and mod.rs:61-69 *)
  Definition rx_rules : list (lexer -> option (bool * lexer)) :=
    [rx_whitespace; rx_comment; rx_class; rx_quantifier; rx_group; rx_assertion; rx_escape; rx_special; rx_character; rx_operator].
  Definition rx_lex : option (list token) := lex_all src (guarded_round src rx_rules) REof.
End Lexer.

(** ** Parser *)

(** lexer/token_type.rs:69-71: nothing is ignored *)
Definition rx_ign (k : nat) : bool := false.

(** parser/mod.rs:77-105: what [infix] finds at the current token *)
Inductive rx_next := RxStop | RxPipe | RxPost.
Definition rx_infix (min : nat) (s : pstate) : rx_next :=
  match peek_kind s with
  | None => RxStop
  | Some k =>
      if k =? RPipe then if 1 <? min then RxStop else RxPipe
      else if existsb (Nat.eqb k) [RQuestion; RStar; RPlus] then if 10 <? min then RxStop else RxPost
      else RxStop
  end.

(** oak-core parser/pratt.rs:237-243 [parse] with parser/mod.rs:30-105: [prefix] and [primary] for [left = None], the loop
    over [infix] for [left = Some l].  [RxPipe] is [binary] with precedence 1 and [Left] (pratt.rs:102-120), [RxPost] is
    lines 95-100: the left operand is pushed again. *)
Fixpoint rx_parse (fuel : nat) (left : option item) (min : nat) (s : pstate) : option (item * pstate) :=
  match fuel with
  | O => None
  | S f =>
      let again (r : option (item * pstate)) := match r with None => None | Some (l, s1) => rx_parse f (Some l) min s1 end in
      match left with
      | None =>
          let cp := checkpoint s in
          let kind := match peek_kind s with Some k => k | None => REof end in
          if existsb (Nat.eqb kind) [RHat; RDollar; RCharacter; RDot] then again (finish_at (bump rx_ign s) cp RPattern)
          else if kind =? RBackslash then again (finish_at (ps_advance rx_ign (bump rx_ign s)) cp RPattern)
          else if kind =? RLParen then
            match rx_parse f None 0 (bump rx_ign s) with
            | None => None
            | Some (_, s1) => again (finish_at (snd (expect rx_ign RRParen s1)) cp RPattern)
            end
          else if kind =? RLBrack then
            again (finish_at (snd (expect rx_ign RRBrack (advance_until rx_ign RRBrack (bump rx_ign s)))) cp RPattern)
          else again (finish_at (bump rx_ign s) cp RError)
      | Some l =>
          match rx_infix min s with
          | RxStop => Some (l, s)
          | RxPost => again (finish_at (bump rx_ign (set_sink s (ps_sink s ++ [l]))) (checkpoint s) RPattern)
          | RxPipe =>
              match fst l with
              | None => None
              | Some id =>
                  match rx_parse f None 2 (snd (expect rx_ign RPipe s)) with
                  | None => None
                  | Some (_, s1) => again (finish_at s1 (checkpoint_before s id) RPattern)
                  end
              end
          end
      end
  end.

(** parser/mod.rs:108-121 with oak-core parser/mod.rs:77-120: parsing a text in a new session.  Every call that is not
    the last consumes a token, or comes after one that does; twice the number of tokens is enough fuel. *)
Definition rx_tree (text : str) : option (green * list (nat * nat)) :=
  match rx_lex text with
  | None => None
  | Some toks =>
      let s := ps_new rx_ign toks (length text) [] in
      match rx_parse (3 * length toks + 3) None 0 s with
      | None => None
      | Some (_, s1) => match finish_at s1 (checkpoint s) RPattern with None => None | Some (root, s2) => Some (snd root, ps_errs s2) end
      end
  end.

(** ** Builder: builder/mod.rs.  [None] is a panic, [Some None] is [Err]. *)

(** ast/mod.rs: what the builder makes.  A [Group] always is not capturing and holds an empty literal; there is no
    function that makes a [Quantifier]. *)
Inductive element :=
| RxClass (negated : bool) (chars : list (Z * (nat * nat))) (span : nat * nat)
| RxGroup (span : nat * nat)
| RxAssertion (start : bool) (span : nat * nat)
| RxLiteral (value : str) (span : nat * nat)
| RxAny (span : nat * nat)
| RxControl (c : Z) (span : nat * nat).
(** a [Pattern] with its one [Alternative] *)
Record pattern := RxPattern { rp_elements : list element; rp_span : nat * nat }.

Section Builder.
  Variable source : str.
  Definition result A := option (option A).
  Definition bind {A B} (r : result A) (f : A -> result B) : result B :=
    match r with None => None | Some None => Some None | Some (Some a) => f a end.
  (** builder/mod.rs:211-213 [text] *)
  Definition rx_text (a b : nat) : str := flat_text_in source a b.

  (** builder/mod.rs:131-166 [build_character_class]; [unwrap] panics on an empty text *)
  Fixpoint build_class (ch : list green) (off : nat) (span : nat * nat) (neg : bool) (acc : list (Z * (nat * nat))) : result element :=
    match ch with
    | [] => Some (Some (RxClass neg acc span))
    | GNode _ _ _ :: _ => Some None
    | GLeaf k n _ :: r =>
        if k =? RHat then build_class r (off + n) span true acc
        else if k =? RCharacter then
          match chars (rx_text off (off + n)) with
          | [] => None
          | c :: _ => build_class r (off + n) span neg (acc ++ [(c, (off, off + n))])
          end
        else build_class r (off + n) span neg acc
    end.
  (** builder/mod.rs:174-195 [build_escape_sequence] *)
  Fixpoint build_escape (ch : list green) (off : nat) (span : nat * nat) (acc : option Z) : result element :=
    match ch with
    | [] => Some (match acc with Some c => Some (RxControl c span) | None => None end)
    | GNode _ _ _ :: _ => Some None
    | GLeaf k n _ :: r => build_escape r (off + n) span (if k =? RCharacter then hd_error (chars (rx_text off (off + n))) else acc)
    end.
  (** builder/mod.rs:112-128 [build_pattern_element], with 169-172 and 198-207 *)
  Definition build_element (k n : nat) (ch : list green) (off : nat) : result element :=
    let span := (off, off + n) in
    if k =? RCharacter then Some (Some (RxLiteral (rx_text off (off + n)) span))
    else if k =? RDot then Some (Some (RxAny span))
    else if k =? RLBrack then build_class ch off span false []
    else if k =? RLParen then Some (Some (RxGroup span))
    else if k =? RBackslash then build_escape ch off span None
    else if k =? RHat then Some (Some (RxAssertion true span))
    else if k =? RDollar then Some (Some (RxAssertion false span))
    else Some None.
  (** builder/mod.rs:80-109 [build_pattern] *)
  Fixpoint build_pattern (ch : list green) (off : nat) (acc : list element) : result (list element) :=
    match ch with
    | [] => Some (Some acc)
    | GNode k n sub :: r => bind (build_element k n sub off) (fun e => build_pattern r (off + n) (acc ++ [e]))
    | GLeaf k n _ :: r =>
        if existsb (Nat.eqb k) [RPipe; RWhitespace; RComment] then build_pattern r (off + n) acc
        else if k =? RCharacter then build_pattern r (off + n) (acc ++ [RxLiteral (rx_text off (off + n)) (off, off + n)])
        else Some None
    end.
  (** builder/mod.rs:53-77 [build_root] *)
  Fixpoint build_patterns (ch : list green) (off : nat) (acc : list pattern) : result (list pattern) :=
    match ch with
    | [] => Some (Some acc)
    | GNode k n sub :: r =>
        if k =? RPattern then bind (build_pattern sub off []) (fun es => build_patterns r (off + n) (acc ++ [RxPattern es (off, off + n)]))
        else Some None
    | GLeaf k n _ :: r => if existsb (Nat.eqb k) [RWhitespace; RComment] then build_patterns r (off + n) acc else Some None
    end.
  Definition build_root (root : green) : result (list pattern) :=
    match root with GNode _ _ ch => build_patterns ch 0 [] | GLeaf _ _ _ => Some None end.
End Builder.

(** builder/mod.rs:30-51 [build]: the patterns, and the diagnostics of the parser.  The error of the builder, if any, is
    added to the diagnostics; that is left out. *)
Definition rx_build (text : str) : option (option (list pattern) * list (nat * nat)) :=
  match rx_tree text with
  | None => None
  | Some (root, errs) => option_map (fun v => (v, errs)) (build_root text root)
  end.
