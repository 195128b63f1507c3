(** What the Scheme lexer is compared with.  Only the numbers of the kinds and the white space class of Unicode are taken from the
    models. *)
From Verif Require Import Base Utf8 LexModel LexSpec LangSpec SchModel.

Definition sspace (c : Z) : Prop := char_is_whitespace c = true.
Definition sdigit (c : Z) : Prop := (48 <= c <= 57)%Z.
Definition ssign (c : Z) : Prop := c = 43%Z \/ c = 45%Z.
(** Letters are neither white space nor, among the ASCII characters, anything but A-Z and a-z *)
Definition letters (alpha : Z -> bool) : Prop := forall c, alpha c = true -> ~ sspace c /\ ((c < 128)%Z -> (65 <= c <= 90)%Z \/ (97 <= c <= 122)%Z).
Definition sstart (alpha : Z -> bool) (c : Z) : Prop := alpha c = true \/ In c [33; 36; 37; 38; 42; 43; 45; 46; 47; 58; 60; 61; 62; 63; 64; 94; 95; 126]%Z.
Definition sletter (alpha : Z -> bool) (c : Z) : Prop := sstart alpha c \/ sdigit c.

Definition stops (P : Z -> Prop) (r : list Z) : Prop := forall c, hd_error r = Some c -> ~ P c.
Definition full_run (P : Z -> Prop) (s r : list Z) : Prop := Forall P s /\ stops P r.

(** Comments in comments: with [n] comments open, [b] closes all of them just at its end; [b] leaves at least one open *)
Inductive closes : nat -> list Z -> Prop :=
| ClEnd : closes 0 []
| ClOpen n b : closes (S (S n)) b -> closes (S n) (35 :: 124 :: b)%Z
| ClClose n b : closes n b -> closes (S n) (124 :: 35 :: b)%Z
| ClOther n c d b : ~ (c = 35 /\ d = 124)%Z -> ~ (c = 124 /\ d = 35)%Z -> closes (S n) (d :: b) -> closes (S n) (c :: d :: b).
Inductive stays_open : nat -> list Z -> Prop :=
| SoEnd n : stays_open (S n) []
| SoLast n c : stays_open (S n) [c]
| SoOpen n b : stays_open (S (S n)) b -> stays_open (S n) (35 :: 124 :: b)%Z
| SoClose n b : stays_open (S n) b -> stays_open (S (S n)) (124 :: 35 :: b)%Z
| SoOther n c d b : ~ (c = 35 /\ d = 124)%Z -> ~ (c = 124 /\ d = 35)%Z -> stays_open (S n) (d :: b) -> stays_open (S n) (c :: d :: b).

(** A number: a sign or none, digits, and a point with digits or none; a digit somewhere, and not a point at the front *)
Inductive number_text : list Z -> Prop :=
| NInt g a : (g = [] \/ exists c, g = [c] /\ ssign c) -> Forall sdigit a -> a <> [] -> number_text (g ++ a)
| NFrac g a b : (g = [] \/ exists c, g = [c] /\ ssign c) -> Forall sdigit a -> Forall sdigit b -> (a <> [] \/ (b <> [] /\ g <> [])) -> number_text (g ++ a ++ 46%Z :: b).
(** No digit follows, and no point unless there is one already *)
Definition number_stops (s q : list Z) : Prop := stops (fun c => sdigit c \/ (c = 46%Z /\ ~ In 46%Z s)) q.

Definition keywords : list (list Z) :=
  map lit ["define"; "lambda"; "if"; "cond"; "case"; "and"; "or"; "not"; "let"; "let*"; "letrec"; "begin"; "do"; "quote"; "quasiquote"; "unquote"; "unquote-splicing"; "set!";
    "delay"; "force"; "null"; "car"; "cdr"; "cons"; "list"; "append"; "length"; "reverse"; "map"; "for-each"; "apply"]%string.
Definition marks : list (Z * nat) :=
  [(40, HLeftParen); (41, HRightParen); (91, HLeftBracket); (93, HRightBracket); (123, HLeftBrace); (125, HRightBrace); (39, HQuote); (96, HQuasiquote); (44, HUnquote); (35, HHash)]%Z.

(** [s] is a piece of kind [k] when [r] follows.  Words and numbers are found in the part [p] of the rest that is at hand. *)
Inductive sch_piece (alpha : Z -> bool) (window : list Z -> list Z -> Prop) : option nat -> list Z -> list Z -> Prop :=
| PSpace s r : full_run sspace s r -> sch_piece alpha window (Some HWhitespace) s r
| PLine s r : full_run (fun c => c <> 10%Z) s r -> sch_piece alpha window (Some HLineComment) (59%Z :: s) r
| PBlock b r : closes 1 b -> sch_piece alpha window (Some HComment) (35 :: 124 :: b)%Z r
| PBlockOpen b : stays_open 1 b -> sch_piece alpha window (Some HComment) (35 :: 124 :: b)%Z []
| PString b r : literal_body 34 (Some 92%Z) b -> sch_piece alpha window (Some HString) (34%Z :: b ++ [34%Z]) r
| PStringOpen b : literal_body 34 (Some 92%Z) b -> sch_piece alpha window (Some HString) (34%Z :: b) []
| PStringEscape b : literal_body 34 (Some 92%Z) b -> sch_piece alpha window (Some HString) (34%Z :: b ++ [92%Z]) []
| PNumber s q r : window (s ++ r) (s ++ q) -> number_text s -> number_stops s q -> sch_piece alpha window (Some HNumber) s r
| PWord c s q r k : window (c :: s ++ r) (c :: s ++ q) -> sstart alpha c -> full_run (sletter alpha) s q -> (forall n x, number_text n -> c :: s ++ q <> n ++ x) ->
    (k = HKeyword /\ In (c :: s) keywords \/ k = HIdentifier /\ ~ In (c :: s) keywords) -> sch_piece alpha window (Some k) (c :: s) r
| PMark c k r : In (c, k) marks -> ~ (c = 35%Z /\ hd_error r = Some 124%Z) -> sch_piece alpha window (Some k) [c] r
| PError c r : ~ sspace c -> ~ sdigit c -> ~ sstart alpha c -> c <> 59%Z -> c <> 34%Z -> (forall k, ~ In (c, k) marks) -> sch_piece alpha window (Some HError) [c] r.

(** The whole rest is at hand; or some of it *)
Definition whole (cs p : list Z) : Prop := p = cs.
Definition some_part (cs p : list Z) : Prop := (exists q, cs = p ++ q) /\ (p = [] -> cs = []).
