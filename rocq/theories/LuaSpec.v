(** What the Lua lexer, parser and builder are compared with.  Only the numbers of the kinds and the types of trees and
    values are taken from the models. *)
From Verif Require Import Base Utf8 LexModel TreeModel JsonLangSpec LangSpec LuaModel.

(** ** Pieces of a text *)
Definition blank (c : Z) : Prop := c = 32%Z \/ c = 9%Z.
Definition eol (c : Z) : Prop := c = 10%Z \/ c = 13%Z.
Definition digit (c : Z) : Prop := (48 <= c <= 57)%Z.
Definition letter (c : Z) : Prop := (97 <= c <= 122)%Z \/ (65 <= c <= 90)%Z.
Definition start (c : Z) : Prop := letter c \/ c = 95%Z.
Definition word (c : Z) : Prop := start c \/ digit c.
Definition quote (c : Z) : Prop := c = 34%Z \/ c = 39%Z.
Definition exp_mark (c : Z) : Prop := c = 101%Z \/ c = 69%Z.
Definition sign (c : Z) : Prop := c = 43%Z \/ c = 45%Z.

(** The next character, if any, is not one of those *)
Definition ends (P : Z -> Prop) (r : list Z) : Prop := forall c, hd_error r = Some c -> ~ P c.
(** A run of characters that is not cut short *)
Definition run_of (P : Z -> Prop) (s r : list Z) : Prop := Forall P s /\ ends P r.
(** One more character, if there is one *)
Definition one (s r : list Z) : Prop := (exists c, s = [c]) \/ s = [] /\ r = [].
(** Up to the first closing bracket and one character more, or everything *)
Definition long (s r : list Z) : Prop :=
  (exists b x, s = b ++ 93%Z :: x /\ ~ In 93%Z b /\ one x r) \/ ~ In 93%Z s /\ r = [].

(** digits, a point and digits, an exponent: all but the first digit may be missing *)
Definition fraction (s : list Z) : Prop := s = [] \/ exists t, s = 46%Z :: t /\ Forall digit t.
Definition exponent (s : list Z) : Prop :=
  s = [] \/ exists e g t, s = e :: g ++ t /\ exp_mark e /\ (g = [] \/ exists c, g = [c] /\ sign c) /\ Forall digit t.
Definition number (s r : list Z) : Prop := exists i f e, s = i ++ f ++ e /\ i <> [] /\ Forall digit i /\ fraction f /\ exponent e /\
  ends digit r /\ (f = [] -> e = [] -> ends (eq 46%Z) r) /\ (e = [] -> ends exp_mark r) /\ (forall c, e = [c] -> ends sign r).

(** The inside of a string: a backslash takes the next character with it. *)
Inductive inside (q : Z) : list Z -> Prop :=
| InNil : inside q []
| InPlain c s : c <> q -> c <> 92%Z -> ~ eol c -> inside q s -> inside q (c :: s)
| InEscaped c s : inside q s -> inside q (92%Z :: c :: s).

Definition keywords : list (list Z * nat) :=
  [(lit "and", UAnd); (lit "break", UBreak); (lit "do", UDo); (lit "else", UElse); (lit "elseif", UElseif); (lit "end", UEnd);
   (lit "false", UFalse); (lit "for", UFor); (lit "function", UFunction); (lit "goto", UGoto); (lit "if", UIf); (lit "in", UIn);
   (lit "local", ULocal); (lit "nil", UNil); (lit "not", UNot); (lit "or", UOr); (lit "repeat", URepeat); (lit "return", UReturn);
   (lit "then", UThen); (lit "true", UTrue); (lit "until", UUntil); (lit "while", UWhile)].
Definition word_kind (s : list Z) (k : nat) : Prop := In (s, k) keywords \/ (forall k', ~ In (s, k') keywords) /\ k = UIdentifier.
(** neither a minus nor an opening bracket *)
Definition marks : list (list Z * nat) :=
  [(lit "...", UDotDotDot);
   (lit "==", UEqEq); (lit "~=", UTildeEq); (lit "<=", ULtEq); (lit "<<", ULtLt); (lit ">=", UGtEq); (lit ">>", UGtGt);
   (lit "..", UDotDot); (lit "::", UColonColon); (lit "//", USlashSlash);
   (lit "=", UEq); (lit "~", UTilde); (lit "<", ULt); (lit ">", UGt); (lit ".", UDot); (lit ":", UColon); (lit "/", USlash);
   (lit "+", UPlus); (lit "*", UStar); (lit "%", UPercent); (lit "^", UCaret); (lit "#", UHash); (lit "&", UAmpersand); (lit "|", UPipe);
   (lit "(", ULeftParen); (lit ")", URightParen); (lit "{", ULeftBrace); (lit "}", URightBrace); (lit "]", URightBracket);
   (lit ";", USemicolon); (lit ",", UComma)].

(** [s] is a piece of kind [k] when [r] follows. *)
Inductive lua_piece : option nat -> list Z -> list Z -> Prop :=
| PBlank s r : s <> [] -> run_of blank s r -> lua_piece (Some UWhitespace) s r
| PLine r : lua_piece (Some UNewline) [10%Z] r
| PReturn r : ends (eq 10%Z) r -> lua_piece (Some UNewline) [13%Z] r
| PReturnLine r : lua_piece (Some UNewline) [13; 10]%Z r
(** a minus, any character, and the rest of the line *)
| PComment x s r : one x (s ++ r) -> ends (eq 91%Z) (s ++ r) -> run_of (fun c => ~ eol c) s r -> lua_piece (Some UComment) (45%Z :: x ++ s) r
| PLongComment x y s r : one x [91%Z] -> one y (s ++ r) -> long s r -> lua_piece (Some UComment) (45%Z :: x ++ 91%Z :: y ++ s) r
| PLongString x s r : one x (s ++ r) -> long s r -> lua_piece (Some UString) (91%Z :: x ++ s) r
| PString q s r : quote q -> inside q s -> lua_piece (Some UString) (q :: s ++ [q]) r
| PBroken q s r : quote q -> inside q s -> (forall c, hd_error r = Some c -> eol c) -> lua_piece (Some UString) (q :: s) r
| PDangling q s : quote q -> inside q s -> lua_piece (Some UString) (q :: s ++ [92%Z]) []
| PNumber s r : number s r -> lua_piece (Some UNumber) s r
| PWord c s r k : start c -> run_of word s r -> word_kind (c :: s) k -> lua_piece (Some k) (c :: s) r
| PMark s k r : In (s, k) marks -> (forall s' k' x, In (s', k') marks -> s ++ r = s' ++ x -> length s' <= length s) -> lua_piece (Some k) s r
| POther c r : ~ blank c -> ~ eol c -> ~ quote c -> ~ word c -> c <> 45%Z -> c <> 91%Z -> (forall s k, In (s, k) marks -> hd_error s <> Some c) ->
    lua_piece (Some UError) [c] r.

(** No minus and no square bracket stands directly before a character that is not ASCII. *)
Definition mild (cs : list Z) : Prop := forall a c d b, cs = a ++ c :: d :: b -> In c (lit "-[]") -> (d < 128)%Z.

(** ** Pieces that do not count *)
Definition trivia (p : piece) : Prop := In (fst p) [Some UWhitespace; Some UNewline; Some UComment].
Definition settled (ps : list piece) : Prop := forall p, hd_error ps = Some p -> ~ trivia p.
(** What no statement begins with and no expression either *)
Definition closers : list nat := [URightParen; URightBrace; URightBracket; UEnd; UElse; UElseif; UUntil].
