(** What the JSON lexer and parser are expected to do. *)
From Verif Require Import Base Utf8 LexModel LexSpec JsonSpec JsonModel.

(** ** Tokens of a text
    A text is cut into pieces; a piece is the characters of a token, or characters without a token. *)
Definition piece := (option nat * list Z)%type.

Fixpoint spans (off : nat) (ps : list piece) : list token :=
  match ps with
  | [] => []
  | (k, s) :: r =>
      let e := off + length (encode s) in
      match k with Some kind => [Token kind off e] | None => [] end ++ spans e r
  end.
Definition text_of_pieces (ps : list piece) : list Z := flat_map snd ps.

Definition digits (s : list Z) : Prop := Forall is_digit s.

(** A sign; with hexadecimal numbers, also a sign and the prefix of one. *)
Definition number_head (cfg : json_config) (s : list Z) : Prop :=
  exists a b, s = a ++ b /\ (a = [] \/ a = lit "-") /\ (b = [] \/ (jc_hex cfg = true /\ (b = lit "0x" \/ b = lit "0X"))).
Definition dot_part (s : list Z) : Prop := s = [] \/ s = lit ".".
Definition exponent_part (s : list Z) : Prop :=
  s = [] \/ exists x a d, (x = 101%Z \/ x = 69%Z) /\ (a = [] \/ a = lit "+" \/ a = lit "-") /\ digits d /\ s = x :: a ++ d.
Definition starts (p s : list Z) : Prop := exists r, s = p ++ r.

(** The literals the lexer recognises; [alpha] and [alnum] are the Unicode predicates of Rust. *)
Inductive lexeme (alpha alnum : Z -> bool) (cfg : json_config) : nat -> list Z -> Prop :=
| LexSpace c s : is_ws c -> Forall (fun x => char_is_whitespace x = true) s -> lexeme alpha alnum cfg KWhitespace (c :: s)
| LexString b : literal_body 34%Z (Some 92%Z) b -> lexeme alpha alnum cfg KStringLit (34%Z :: b ++ [34%Z])
| LexSingle s : jc_single cfg = true -> starts (lit "'") s -> lexeme alpha alnum cfg KStringLit s
| LexNumber h d1 dot d2 e : number_head cfg h -> digits d1 -> dot_part dot -> digits d2 -> (dot = [] -> d2 = []) ->
    exponent_part e -> d1 ++ d2 <> [] -> lexeme alpha alnum cfg KNumberLit (h ++ d1 ++ dot ++ d2 ++ e)
| LexHex h d : jc_hex cfg = true -> number_head cfg h -> d <> [] -> Forall (fun c => ascii_hexdigit c = true \/ c = 95%Z) d ->
    lexeme alpha alnum cfg KNumberLit (h ++ d)
| LexWord k s : In (k, s) [(KBooleanLit, lit "true"); (KBooleanLit, lit "false"); (KNullLit, lit "null")] -> lexeme alpha alnum cfg k s
| LexPunct k s : In (k, s) [(KLBrace, lit "{"); (KRBrace, lit "}"); (KLBracket, lit "["); (KRBracket, lit "]"); (KComma, lit ","); (KColon, lit ":")] -> lexeme alpha alnum cfg k s
| LexComment s : jc_comments cfg = true -> starts (lit "//") s \/ starts (lit "/*") s -> lexeme alpha alnum cfg KComment s
| LexBare c s : jc_bare cfg = true -> alpha c = true \/ c = 95%Z \/ c = 36%Z -> Forall (fun x => alnum x = true \/ x = 95%Z \/ x = 36%Z) s ->
    lexeme alpha alnum cfg KBareKey (c :: s)
| LexOpen s : literal_body 34%Z (Some 92%Z) s \/ (exists b, s = b ++ [92%Z] /\ literal_body 34%Z (Some 92%Z) b) -> lexeme alpha alnum cfg KError (34%Z :: s)
| LexBad c : ~ is_ws c -> ~ In c (lit """-0123456789{}[],:tfn") -> lexeme alpha alnum cfg KError [c].

(** What the lexer leaves out: numbers without digits, single letters and slashes. *)
Inductive stray (cfg : json_config) : list Z -> Prop :=
| StrayNumber h dot e : number_head cfg h -> dot_part dot -> exponent_part e -> h <> [] -> stray cfg (h ++ dot ++ e)
| StrayLetter c : In c (lit "tfn") -> stray cfg [c]
| StraySlash : jc_comments cfg = true -> stray cfg (lit "/").

(** ** Documents as sequences of token kinds, trivia left out *)
Inductive tvalue (cfg : json_config) : list nat -> Prop :=
| TVScalar k : In k [KStringLit; KNumberLit; KBooleanLit; KNullLit] -> tvalue cfg [k]
| TVArray0 : tvalue cfg [KLBracket; KRBracket]
| TVArray s t : tvalues cfg s -> ttrail cfg t -> tvalue cfg (KLBracket :: s ++ t ++ [KRBracket])
| TVObject0 : tvalue cfg [KLBrace; KRBrace]
| TVObject s t : tmembers cfg s -> ttrail cfg t -> tvalue cfg (KLBrace :: s ++ t ++ [KRBrace])
with tvalues (cfg : json_config) : list nat -> Prop :=
| TVOne s : tvalue cfg s -> tvalues cfg s
| TVMore s r : tvalue cfg s -> tvalues cfg r -> tvalues cfg (s ++ KComma :: r)
with tmembers (cfg : json_config) : list nat -> Prop :=
| TMOne k s : tkey cfg k -> tvalue cfg s -> tmembers cfg (k :: KColon :: s)
| TMMore k s r : tkey cfg k -> tvalue cfg s -> tmembers cfg r -> tmembers cfg (k :: KColon :: s ++ KComma :: r)
with tkey (cfg : json_config) : nat -> Prop :=
| TKString : tkey cfg KStringLit
| TKBare : jc_bare cfg = true -> tkey cfg KBareKey
with ttrail (cfg : json_config) : list nat -> Prop :=
| TTNone : ttrail cfg []
| TTComma : jc_trailing cfg = true -> ttrail cfg [KComma].

(** The kinds of the tokens that are not trivia. *)
Definition kinds (toks : list token) : list nat := filter (fun k => negb (ignored k)) (map tk_kind toks).

(** A piece that is a well formed JSON lexeme, trivia included. *)
Definition well_formed (p : piece) : Prop :=
  match fst p with
  | None => False
  | Some k =>
      (k = KWhitespace -> ws (snd p)) /\ (k = KNumberLit -> jnumber (snd p)) /\ (k = KStringLit -> exists d, jstring (snd p) d)
  end.

(** Tokens one after another, between two offsets. *)
Fixpoint in_order (a : nat) (toks : list token) (b : nat) : Prop :=
  match toks with
  | [] => a <= b
  | t :: r => a <= tk_start t /\ tk_start t <= tk_end t /\ in_order (tk_end t) r b
  end.

(** What a text of pieces leaves out of its tokens. *)
Definition left_out (ps : list piece) : list (list Z) := flat_map (fun p => match fst p with None => [snd p] | Some _ => [] end) ps.

(** The leaves of a tree that are not trivia. *)
Definition leaf_kinds (ys : list (nat * nat)) : list nat := filter (fun k => negb (ignored k)) (map fst ys).

Definition eof_at (n : nat) : token := Token KEof n n.
