(** What the SQL lexer and parser are compared with.  Only the numbers of the kinds and the type of trees are taken from the
    models, and which characters are white space. *)
From Verif Require Import Base Utf8 LexModel TreeModel JsonLangSpec LangSpec SqlModel.

(** ** Pieces of a text *)
Definition blank (c : Z) : Prop := c = 32%Z \/ c = 9%Z.
Definition white (c : Z) : Prop := char_is_whitespace c = true.
Definition eol (c : Z) : Prop := c = 10%Z \/ c = 13%Z.
Definition digit (c : Z) : Prop := (48 <= c <= 57)%Z.
Definition digit_ (c : Z) : Prop := digit c \/ c = 95%Z.
Definition start (c : Z) : Prop := (97 <= c <= 122)%Z \/ (65 <= c <= 90)%Z \/ c = 95%Z.
Definition quote (c : Z) : Prop := c = 34%Z \/ c = 39%Z.
Definition exp_mark (c : Z) : Prop := c = 101%Z \/ c = 69%Z.
Definition sign (c : Z) : Prop := c = 43%Z \/ c = 45%Z.

(** The next character, if any, is not one of those *)
Definition ends (P : Z -> Prop) (r : list Z) : Prop := forall c, hd_error r = Some c -> ~ P c.
(** A run of characters that is not cut short *)
Definition run_of (P : Z -> Prop) (s r : list Z) : Prop := Forall P s /\ ends P r.

(** A point and a digit; an exponent with a sign or a digit *)
Definition has_fraction (s : list Z) : Prop := exists d t, s = 46%Z :: d :: t /\ digit d.
Definition has_exponent (s : list Z) : Prop := exists x d t, s = x :: d :: t /\ exp_mark x /\ (sign d \/ digit d).
Definition fraction (s : list Z) : Prop := s = [] \/ has_fraction s /\ Forall digit_ (tl s).
Definition exponent (s : list Z) : Prop := s = [] \/ has_exponent s /\ Forall digit_ (tl (tl s)).
(** [float] is whether there is a fraction or an exponent *)
Definition number (float : bool) (s r : list Z) : Prop := exists c i f e, s = c :: i ++ f ++ e /\ digit c /\ Forall digit_ i /\ fraction f /\ exponent e /\
  ends digit_ r /\ (f = [] -> e = [] -> ~ has_fraction r) /\ (e = [] -> ~ has_exponent r) /\ (float = true <-> f <> [] \/ e <> []).

(** The inside of a string: a backslash takes the next character with it. *)
Inductive inside (q : Z) : list Z -> Prop :=
| InNil : inside q []
| InPlain c s : c <> q -> c <> 92%Z -> ~ eol c -> inside q s -> inside q (c :: s)
| InEscaped c s : inside q s -> inside q (92%Z :: c :: s).

Definition keywords : list (list Z * nat) :=
  [(lit "SELECT", QSelect); (lit "FROM", QFrom); (lit "WHERE", QWhere); (lit "INSERT", QInsert);
   (lit "UPDATE", QUpdate); (lit "DELETE", QDelete); (lit "CREATE", QCreate); (lit "DROP", QDrop);
   (lit "ALTER", QAlter); (lit "TABLE", QTable); (lit "INDEX", QIndex); (lit "INTO", QInto);
   (lit "VALUES", QValues); (lit "SET", QSet); (lit "JOIN", QJoin); (lit "INNER", QInner); (lit "LEFT", QLeft);
   (lit "RIGHT", QRight); (lit "FULL", QFull); (lit "OUTER", QOuter); (lit "ON", QOn); (lit "AND", QAnd);
   (lit "OR", QOr); (lit "NOT", QNot); (lit "NULL", QNull); (lit "TRUE", QTrue); (lit "FALSE", QFalse);
   (lit "AS", QAs); (lit "BY", QBy); (lit "ORDER", QOrder); (lit "ASC", QAsc); (lit "DESC", QDesc);
   (lit "GROUP", QGroup); (lit "HAVING", QHaving); (lit "LIMIT", QLimit); (lit "OFFSET", QOffset);
   (lit "UNION", QUnion); (lit "ALL", QAll); (lit "DISTINCT", QDistinct); (lit "PRIMARY", QPrimary);
   (lit "KEY", QKey); (lit "FOREIGN", QForeign); (lit "REFERENCES", QReferences); (lit "DEFAULT", QDefault);
   (lit "UNIQUE", QUnique); (lit "AUTO_INCREMENT", QAutoIncrement); (lit "INT", QInt); (lit "INTEGER", QInteger);
   (lit "VARCHAR", QVarchar); (lit "CHAR", QChar); (lit "TEXT", QText); (lit "DATE", QDate); (lit "TIME", QTime);
   (lit "TIMESTAMP", QTimestamp); (lit "DECIMAL", QDecimal); (lit "FLOAT", QFloat); (lit "DOUBLE", QDouble);
   (lit "BOOLEAN", QBoolean)].
Definition marks : list (list Z * nat) :=
  [(lit "<=", QLessEqual); (lit ">=", QGreaterEqual); (lit "<>", QNotEqual); (lit "!=", QNotEqual); (lit "=", QEqual); (lit "<", QLess);
   (lit ">", QGreater); (lit "+", QPlus); (lit "-", QMinus); (lit "*", QStar); (lit "/", QSlash); (lit "%", QPercent);
   (lit "(", QLeftParen); (lit ")", QRightParen); (lit ",", QComma); (lit ";", QSemicolon); (lit ".", QDot)].

Section Pieces.
  (** which characters are letters or digits, and how a word is written in capitals *)
  Variable alnum : Z -> bool.
  Variable upper : list Z -> list Z.
  Definition word (c : Z) : Prop := alnum c = true \/ c = 95%Z.
  Definition word_kind (s : list Z) (k : nat) : Prop :=
    In (upper (encode s), k) keywords \/ (forall k', ~ In (upper (encode s), k') keywords) /\ k = QIdentifier.

  (** [s] is a piece of kind [k] when [r] follows. *)
  Inductive sql_piece : option nat -> list Z -> list Z -> Prop :=
  | PBlank c s r : blank c -> run_of white s r -> sql_piece (Some QWhitespace) (c :: s) r
  | PLine r : sql_piece (Some QNewline) [10%Z] r
  | PReturn r : ends (eq 10%Z) r -> sql_piece (Some QNewline) [13%Z] r
  | PReturnLine r : sql_piece (Some QNewline) [13; 10]%Z r
  | PComment s r : run_of (fun c => ~ eol c) s r -> sql_piece (Some QComment) (45%Z :: 45%Z :: s) r
  (** to the first star and slash, or to the end *)
  | PBlock s r : (forall a b, s ++ [42; 47]%Z = a ++ 42%Z :: 47%Z :: b -> b = []) -> sql_piece (Some QComment) (47%Z :: 42%Z :: s ++ [42; 47]%Z) r
  | POpenBlock s : (forall a b, s <> a ++ 42%Z :: 47%Z :: b) -> sql_piece (Some QComment) (47%Z :: 42%Z :: s) []
  | PString q s r : quote q -> inside q s -> sql_piece (Some QStringLiteral) (q :: s ++ [q]) r
  (** the end of the line is part of an open string *)
  | PBroken q s e r : quote q -> inside q s -> eol e -> sql_piece (Some QStringLiteral) (q :: s ++ [e]) r
  | POpen q s : quote q -> inside q s -> sql_piece (Some QStringLiteral) (q :: s) []
  | PDangling q s : quote q -> inside q s -> sql_piece (Some QStringLiteral) (q :: s ++ [92%Z]) []
  | PNumber s r : number false s r -> sql_piece (Some QNumberLiteral) s r
  | PFloat s r : number true s r -> sql_piece (Some QFloatLiteral) s r
  | PWord c s r k : start c -> run_of word s r -> word_kind (c :: s) k -> sql_piece (Some k) (c :: s) r
  | PMark s k r : In (s, k) marks -> (forall s' k' x, In (s', k') marks -> s ++ r = s' ++ x -> length s' <= length s) ->
      (forall x, s ++ r <> 45%Z :: 45%Z :: x) -> (forall x, s ++ r <> 47%Z :: 42%Z :: x) -> sql_piece (Some k) s r
  (** an exclamation mark of its own *)
  | PSkipped r : ends (eq 61%Z) r -> sql_piece None [33%Z] r
  | POther c r : ~ blank c -> ~ eol c -> ~ quote c -> ~ digit c -> ~ start c -> c <> 33%Z -> (forall s k, In (s, k) marks -> hd_error s <> Some c) ->
      sql_piece (Some QError) [c] r.
End Pieces.

(** ** Pieces that do not count *)
Definition trivia (p : piece) : Prop := fst p = None \/ In (fst p) [Some QWhitespace; Some QNewline; Some QComment; Some QLineComment; Some QBlockComment].
(** The next piece, if any, counts. *)
Definition settled (ps : list piece) : Prop := forall p, hd_error ps = Some p -> ~ trivia p.
(** [b] is [a] with some things left out, all of them counting *)
Inductive thinned : list (nat * nat) -> list (nat * nat) -> Prop :=
| ThinNil : thinned [] []
| ThinKeep y a b : thinned a b -> thinned (y :: a) (y :: b)
| ThinLeave y a b : ~ In (fst y) [QWhitespace; QNewline; QComment; QLineComment; QBlockComment] -> thinned a b -> thinned (y :: a) b.

(** ** Expressions *)
(** The leaves of pieces that do not count *)
Definition leaves (ps : list piece) : list green := flat_map (fun p => match fst p with Some k => [leaf k (snd p)] | None => [] end) ps.
Inductive level : nat -> nat -> Prop :=
| LOr : level QOr 1
| LAnd : level QAnd 2
| LCompare k : In k [QEqual; QNotEqual; QLess; QGreater; QLessEqual; QGreaterEqual] -> level k 3
| LSum k : In k [QPlus; QMinus] -> level k 10
| LProduct k : In k [QStar; QSlash; QPercent] -> level k 11.
(** [groups l ps t]: the pieces [ps] are an expression whose operators outside of parentheses have at least the level [l],
    and [t] is its tree.  Operators of one level group to the left. *)
Inductive groups : nat -> list piece -> green -> Prop :=
| GLiteral l k x w : In k [QNumberLiteral; QStringLiteral] -> Forall trivia w -> groups l ((Some k, x) :: w) (gnode NExpression (leaf k x :: leaves w))
| GGroup l x w ps t y w' : Forall trivia w -> groups 0 ps t -> Forall trivia w' ->
    groups l ((Some QLeftParen, x) :: w ++ ps ++ (Some QRightParen, y) :: w')
      (gnode NExpression (leaf QLeftParen x :: leaves w ++ t :: leaf QRightParen y :: leaves w'))
(** names, numbers with a point, and everything else are errors *)
| GOther l k x w : ~ trivia (Some k, x) -> ~ In k [QNumberLiteral; QStringLiteral; QBooleanLiteral; QNullLiteral; QLeftParen; QIdentifier_] ->
    Forall trivia w -> groups l ((Some k, x) :: w) (gnode NErrorNode (leaf k x :: leaves w))
(** the node of an operation is called a drop statement *)
| GBinary l p k x w ps1 t1 ps2 t2 : l <= p -> level k p -> Forall trivia w -> groups p ps1 t1 -> groups (S p) ps2 t2 ->
    groups l (ps1 ++ (Some k, x) :: w ++ ps2) (gnode NDropStatement (t1 :: leaf k x :: leaves w ++ [t2])).

(** ** Programs *)
Definition first_kind (ps : list piece) : option nat := match ps with (Some k, _) :: _ => Some k | _ => None end.
Definition first_not (ks : list nat) (ps : list piece) : Prop := forall k, first_kind ps = Some k -> ~ In k ks.
Definition none_is (k : nat) (ps : list piece) : Prop := Forall (fun p => fst p <> Some k) ps.
Definition operators : list nat :=
  [QOr; QAnd; QEqual; QNotEqual; QLess; QGreater; QLessEqual; QGreaterEqual; QLike; QIn; QBetween; QIs; QPlus; QMinus; QStar; QSlash; QPercent].
(** Expressions, each with a comma after it or not *)
Inductive items : list piece -> list green -> Prop :=
| INil : items [] []
| IComma ps t x w rest ts : groups 0 ps t -> first_not [QFrom] ps -> Forall trivia w -> items rest ts ->
    items (ps ++ (Some QComma, x) :: w ++ rest) (t :: leaf QComma x :: leaves w ++ ts)
| INext ps t rest ts : groups 0 ps t -> first_not [QFrom] ps -> items rest ts -> first_not (QComma :: operators) rest -> items (ps ++ rest) (t :: ts).
Definition statement_words : list nat := [QSelect; QInsert; QUpdate; QDelete; QCreate; QDrop; QAlter].
(** A statement that begins with a word and maybe another one, and then should have a name; the list is what would go on
    with the statement there.  [QIdentifier_] is the kind of name that is expected, which no text has. *)
Inductive named : nat -> nat -> option nat -> list nat -> Prop :=
| NamedInsert : named QInsert NInsertStatement (Some QInto) [QIdentifier_; QValues; QSemicolon]
| NamedUpdate : named QUpdate NUpdateStatement None [QIdentifier_; QSet; QWhere; QSemicolon]
| NamedDelete : named QDelete NDeleteStatement (Some QFrom) [QIdentifier_; QWhere; QSemicolon].
Inductive skipped : nat -> nat -> Prop :=
| SkippedCreate : skipped QCreate NCreateStatement
| SkippedDrop : skipped QDrop NDropStatement
| SkippedAlter : skipped QAlter NAlterStatement.
Definition stray (p : piece) : bool := match fst p with Some k => existsb (Nat.eqb k) [QWhitespace; QNewline; QComment; QLineComment; QBlockComment] | None => false end.

(** [program ps ts e]: the trees of the pieces [ps] up to the end of the file, and how many diagnostics there are *)
Inductive program : list piece -> list green -> nat -> Prop :=
(** a list of expressions takes everything to the end, the end of the file with it *)
| ProgramItems x w ps ts : Forall trivia w -> items ps ts ->
    program ((Some QSelect, x) :: w ++ ps) [gnode NSelectStatement (leaf QSelect x :: leaves w ++ ts ++ [gnode NErrorNode [leaf QEof []]])] 0
(** the name after FROM is not recognised: the statement ends before it *)
| ProgramFrom x w ps ts y w' rest ts' e : Forall trivia w -> items ps ts -> Forall trivia w' -> settled rest ->
    first_not [QIdentifier_; QJoin; QInner; QLeft; QRight; QFull; QWhere; QGroup; QHaving; QOrder; QLimit; QOffset; QSemicolon] rest -> program rest ts' e ->
    program ((Some QSelect, x) :: w ++ ps ++ (Some QFrom, y) :: w' ++ rest)
      (gnode NSelectStatement (leaf QSelect x :: leaves w ++ ts ++ leaf QFrom y :: leaves w') :: ts') (S e)
| ProgramNamed k kind o next x w rest ts e : named k kind o next -> Forall trivia w -> settled rest -> (forall k', o = Some k' -> first_not [k'] rest) ->
    first_not next rest -> program rest ts e ->
    program ((Some k, x) :: w ++ rest) (gnode kind (leaf k x :: leaves w) :: ts) (S e)
| ProgramNamed2 k kind k' next x w y w' rest ts e : named k kind (Some k') next -> Forall trivia w -> Forall trivia w' -> settled rest ->
    first_not next rest -> program rest ts e ->
    program ((Some k, x) :: w ++ (Some k', y) :: w' ++ rest) (gnode kind (leaf k x :: leaves w ++ leaf k' y :: leaves w') :: ts) (S e)
(** the body of these statements is lost *)
| ProgramSkipped k kind x w body y w' rest ts e : skipped k kind -> Forall trivia w -> settled body -> none_is QSemicolon body -> Forall trivia w' -> settled rest -> program rest ts e ->
    program ((Some k, x) :: w ++ body ++ (Some QSemicolon, y) :: w' ++ rest)
      (gnode kind (leaf k x :: leaves w ++ leaves (filter stray body) ++ leaf QSemicolon y :: leaves w') :: ts) e
| ProgramSkippedEnd k kind x w body : skipped k kind -> Forall trivia w -> settled body -> none_is QSemicolon body ->
    program ((Some k, x) :: w ++ body) [gnode kind (leaf k x :: leaves w ++ leaves (filter stray body))] 0
(** and so is everything that is no statement *)
| ProgramLost body y w rest ts e : settled body -> none_is QSemicolon body -> first_not statement_words body -> Forall trivia w -> settled rest -> program rest ts e ->
    program (body ++ (Some QSemicolon, y) :: w ++ rest) (leaves (filter stray body) ++ leaf QSemicolon y :: leaves w ++ ts) e
| ProgramLostEnd body : settled body -> none_is QSemicolon body -> first_not statement_words body -> program body (leaves (filter stray body)) 0.
