(** What the lexer, parser and builder of regular expressions are compared with. *)
From Verif Require Import Base Utf8 LexModel TreeModel TreeSpec JsonLangSpec LangSpec RegexModel.

Definition ends (P : Z -> Prop) (r : list Z) : Prop := forall c, hd_error r = Some c -> ~ P c.
Definition space (c : Z) : Prop := char_is_whitespace c = true.
Definition digit (c : Z) : Prop := (48 <= c <= 57)%Z.

(** The marks of one character that are a token of their own *)
Definition marks : list (list Z * nat) :=
  [(lit "*", RStar); (lit "+", RPlus); (lit "?", RQuestion); (lit "(", RLParen); (lit ")", RRParen); (lit "^", RHat); (lit "$", RDollar);
   (lit ".", RDot); (lit "|", RPipe)].
(** … and the other characters with a meaning *)
Definition others : list Z := lit "[{\},#".
(** A character that stands for itself *)
Definition ordinary (c : Z) : Prop := ~ space c /\ ~ In c others /\ forall k, ~ In ([c], k) marks.

(** Between the brackets of a class: a backslash takes the next character, whatever it is. *)
Inductive members : list piece -> Prop :=
| MNil : members []
| MChar c ps : c <> 93%Z -> c <> 92%Z -> members ps -> members ((Some RCharacter, [c]) :: ps)
| MEscape c ps : members ps -> members ((Some RBackslash, lit "\") :: (Some RCharacter, [c]) :: ps).
(** The start of a class *)
Inductive opening : list piece -> Prop :=
| OPlain : opening [(Some RLBrack, lit "[")]
| OHat : opening [(Some RLBrack, lit "["); (Some RHat, lit "^")].
Definition hat_read (o ps : list piece) : Prop := o = [(Some RLBrack, lit "[")] -> ends (eq 94%Z) (text_of_pieces ps).
(** Between the braces of a count *)
Definition figure (p : piece) : Prop := p = (Some RComma, lit ",") \/ exists c, digit c /\ p = (Some RDigit, [c]).

(** The items of a text: the pieces of one, whether it is broken off, and the text that follows. *)
Inductive rx_item : list piece -> bool -> list Z -> Prop :=
| IBlank s r : s <> [] -> Forall space s -> ends space r -> rx_item [(Some RWhitespace, s)] false r
| IComment s r : Forall (fun c => c <> 10%Z) s -> ends (fun c => c <> 10%Z) r -> rx_item [(Some RComment, lit "#" ++ s)] false r
| IClass o ps r : opening o -> hat_read o ps -> members ps -> rx_item (o ++ ps ++ [(Some RRBrack, lit "]")]) false r
| IClassOpen o ps : opening o -> hat_read o ps -> members ps -> rx_item (o ++ ps) true []
| IClassEscape o ps : opening o -> hat_read o ps -> members ps -> rx_item (o ++ ps ++ [(Some RBackslash, lit "\")]) true []
| ICount ps r : Forall figure ps -> rx_item ((Some RLBrace, lit "{") :: ps ++ [(Some RRBrace, lit "}")]) false r
| ICountOpen ps r : Forall figure ps -> ends (fun c => digit c \/ c = 44%Z \/ c = 125%Z) r -> rx_item ((Some RLBrace, lit "{") :: ps) true r
| IEscape c r : rx_item [(Some RBackslash, lit "\"); (Some RCharacter, [c])] false r
| IEscapeEnd : rx_item [(Some RBackslash, lit "\")] false []
| IMark s k r : In (s, k) marks -> rx_item [(Some k, s)] false r
| IChar c r : ordinary c -> rx_item [(Some RCharacter, [c])] false r
| IGap c r : In c (lit ",}") -> rx_item [(None, [c])] false r.

(** A text cut into items *)
Inductive rx_items : list Z -> list (list piece * bool) -> Prop :=
| RxEnd : rx_items [] []
| RxItem ps b r its : rx_item ps b r -> rx_items r its -> rx_items (text_of_pieces ps ++ r) ((ps, b) :: its).

(** The tokens of items: those of the pieces, and for an item that is broken off another over all of it *)
Fixpoint item_tokens (off : nat) (its : list (list piece * bool)) : list token :=
  match its with
  | [] => []
  | (ps, b) :: r =>
      let e := off + length (encode (text_of_pieces ps)) in
      spans off ps ++ (if b then [Token RError off e] else []) ++ item_tokens e r
  end.
Definition rx_tokens (cs : list Z) (its : list (list piece * bool)) : list token :=
  let n := length (encode cs) in item_tokens 0 its ++ [Token REof n n].

(** Characters and the bars between them *)
Fixpoint barred (c : Z) (cs : list Z) : list Z := match cs with [] => [c] | d :: r => c :: lit "|" ++ barred d r end.
(** The tree of a character, and of the alternatives of a list of them *)
Definition char_tree (c : Z) : green := gnode RPattern [leaf RCharacter [c]].
Definition alternatives (left : green) (cs : list Z) : green := fold_left (fun l c => gnode RPattern [l; leaf RPipe (lit "|"); char_tree c]) cs left.

(** Characters that the lexer passes over *)
Definition gap (c : Z) : Prop := In c (lit ",}").
(** The next character that is not passed over is an operator. *)
Definition operated (cs : list Z) : Prop := exists g d r, cs = g ++ d :: r /\ Forall gap g /\ In d (lit "|*+?").

(** What the builder makes of anything it accepts: one literal *)
Definition one_literal (value : str) (n : nat) : list pattern := [RxPattern [RxLiteral value (0, n)] (0, n)].

(** Groups in each other, each one repeated *)
Fixpoint starred (n : nat) : list Z := match n with O => lit "x" | S m => lit "(" ++ starred m ++ lit "*)" end.
