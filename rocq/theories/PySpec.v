(** What the Python lexer is compared with: a text is cut into pieces, and the pieces are laid out in lines.
    Only the numbers of the kinds are taken from the model. *)
From Coq Require Import String.
From Verif Require Import Base Utf8 LexModel JsonLangSpec LangSpec PyModel.
Open Scope list_scope.

(** ** Classes of characters *)
Definition blank (c : Z) : Prop := c = 32%Z \/ c = 9%Z.
Definition eol (c : Z) : Prop := c = 10%Z \/ c = 13%Z.
Definition digit (c : Z) : Prop := (48 <= c <= 57)%Z.
Definition letter (c : Z) : Prop := (97 <= c <= 122)%Z \/ (65 <= c <= 90)%Z \/ c = 95%Z.
Definition wordy (c : Z) : Prop := letter c \/ digit c.
Definition numeral (c : Z) : Prop := digit c \/ c = 46%Z.
Definition quote (c : Z) : Prop := c = 34%Z \/ c = 39%Z.

(** The next character, if any, is not one of those *)
Definition ends (P : Z -> Prop) (r : list Z) : Prop := forall c, hd_error r = Some c -> ~ P c.

(** ** Tables *)
Definition reserved : list (list Z * nat) :=
  combine (map lit ["and"; "as"; "assert"; "async"; "await"; "break"; "class"; "continue"; "def"; "del"; "elif"; "else"; "except"; "False";
                    "finally"; "for"; "from"; "global"; "if"; "import"; "in"; "is"; "lambda"; "None"; "nonlocal"; "not"; "or"; "pass";
                    "raise"; "return"; "True"; "try"; "while"; "with"; "yield"]%string) (seq PyAndKeyword 35).
Definition operators : list (list Z * nat) :=
  [(lit "+", PyPlus); (lit "+=", PyPlusAssign); (lit "-", PyMinus); (lit "-=", PyMinusAssign); (lit "->", PyArrow);
   (lit "*", PyStar); (lit "*=", PyStarAssign); (lit "**", PyDoubleStar); (lit "**=", PyDoubleStarAssign);
   (lit "/", PySlash); (lit "/=", PySlashAssign); (lit "//", PyDoubleSlash); (lit "//=", PyDoubleSlashAssign);
   (lit "%", PyPercent); (lit "%=", PyPercentAssign); (lit "=", PyAssign); (lit "==", PyEqual);
   (lit "<", PyLess); (lit "<=", PyLessEqual); (lit "<<", PyLeftShift); (lit "<<=", PyLeftShiftAssign);
   (lit ">", PyGreater); (lit ">=", PyGreaterEqual); (lit ">>", PyRightShift); (lit ">>=", PyRightShiftAssign);
   (lit "&", PyAmpersand); (lit "&=", PyAmpersandAssign); (lit "|", PyPipe); (lit "|=", PyPipeAssign);
   (lit "^", PyCaret); (lit "^=", PyCaretAssign); (lit "~", PyTilde); (lit "@", PyAt); (lit "@=", PyAtAssign)].
Definition marks : list (Z * nat) :=
  [(40, PyLeftParen); (41, PyRightParen); (91, PyLeftBracket); (93, PyRightBracket); (123, PyLeftBrace); (125, PyRightBrace);
   (44, PyComma); (58, PyColon); (59, PySemicolon); (46, PyDot)]%Z.
(** The letters before a string and the kind of the string *)
Definition prefixes : list (Z * nat) :=
  [(102, PyFString); (70, PyFString); (98, PyBytes); (66, PyBytes); (114, PyString); (82, PyString); (117, PyString); (85, PyString)]%Z.

(** A reserved word or a name *)
Definition word_of (w : list Z) (k : nat) : Prop := In (w, k) reserved \/ (k = PyIdentifier /\ ~ In w (map fst reserved)).

(** No operator of the table that is longer than [o] starts [o ++ r]. *)
Definition longest (o r : list Z) : Prop := forall o' k' x, In (o', k') operators -> o ++ r = o' ++ x -> List.length o' <= List.length o.

(** [closes q triple s r]: after the opening quotes, [s] is the rest of the string and [r] follows.  A backslash takes the next
    character along.  A string that is not triple ends before the end of the line, any string at the end of the text. *)
Inductive closes (q : Z) (triple : bool) : list Z -> list Z -> Prop :=
| ClEnd : closes q triple [] []
| ClLine c r : triple = false -> eol c -> closes q triple [] (c :: r)
| ClOne r : triple = false -> closes q triple [q] r
| ClThree r : triple = true -> closes q triple [q; q; q] r
| ClCut : closes q triple [92%Z] []
| ClEscape c s r : closes q triple s r -> closes q triple (92%Z :: c :: s) r
| ClChar c s r : c <> 92%Z -> (triple = false -> c <> q /\ ~ eol c) -> (triple = true -> c = q -> forall x, s ++ r <> q :: q :: x) ->
    closes q triple s r -> closes q triple (c :: s) r.
(** After the first quote *)
Inductive opened (q : Z) : list Z -> list Z -> Prop :=
| OpOne s r : (forall x, s ++ r <> q :: q :: x) -> closes q false s r -> opened q s r
| OpThree s r : closes q true s r -> opened q (q :: q :: s) r.

(** [py_piece k s r]: where [s ++ r] is left, [s] is a piece of kind [k]. *)
Inductive py_piece : option nat -> list Z -> list Z -> Prop :=
| PkBlank c s r : blank c -> Forall blank s -> ends blank r -> py_piece (Some PyWhitespace) (c :: s) r
| PkLf r : py_piece (Some PyNewline) [10%Z] r
| PkCrLf r : py_piece (Some PyNewline) [13%Z; 10%Z] r
| PkCr r : ends (eq 10%Z) r -> py_piece (Some PyNewline) [13%Z] r
| PkComment s r : Forall (fun c => ~ eol c) s -> (forall c, hd_error r = Some c -> eol c) -> py_piece (Some PyComment) (35%Z :: s) r
| PkNumber c s r : digit c -> Forall numeral s -> ends numeral r -> py_piece (Some PyNumber) (c :: s) r
| PkWord c s k r : letter c -> Forall wordy s -> ends wordy r -> word_of (c :: s) k ->
    (s = [] -> In c (map fst prefixes) -> ends quote r) -> py_piece (Some k) (c :: s) r
| PkString q s r : quote q -> opened q s r -> py_piece (Some PyString) (q :: s) r
| PkPrefixed p k q s r : In (p, k) prefixes -> quote q -> opened q s r -> py_piece (Some k) (p :: q :: s) r
| PkOperator o k r : In (o, k) operators -> longest o r -> py_piece (Some k) o r
| PkMark c k r : In (c, k) marks -> py_piece (Some k) [c] r
| PkError c r : ~ blank c -> ~ eol c -> c <> 35%Z -> ~ digit c -> ~ letter c -> ~ quote c -> ~ In [c] (map fst operators) -> ~ In c (map fst marks) ->
    py_piece (Some PyError) [c] r.

(** ** Lines *)
Definition kind_of (p : piece) : nat := match fst p with Some k => k | None => PyError end.
Definition is_kind (p : piece) (k : nat) : bool := kind_of p =? k.

(** The columns that blanks take: a tabulator is eight columns wide. *)
Definition column (c : Z) : nat := if Z.eqb c 9 then 8 else 1.
Definition columns (s : list Z) : nat := list_sum (map column s).

(** The indentation of the line that starts here; none where there is nothing but blanks and a comment. *)
Definition vain (ps : list piece) : bool := match ps with [] => true | p :: _ => is_kind p PyNewline || is_kind p PyComment end.
Definition line_indent (ps : list piece) : option nat :=
  match ps with
  | p :: rest => if is_kind p PyWhitespace then (if vain rest then None else Some (columns (snd p))) else (if vain ps then None else Some 0)
  | [] => None
  end.

(** The levels left when a line is indented by [n], and the marks that say so. *)
Fixpoint leave (n : nat) (stack : list nat) : list nat :=
  match stack with [] => [] | top :: rest => if n <? top then leave n rest else stack end.
Definition shift (n : nat) (stack : list nat) : list nat * list nat :=
  if hd 0 stack <? n then (n :: stack, [PyIndent])
  else let st := leave n stack in (st, repeat PyDedent (List.length stack - List.length st)).

Definition open_mark (k : nat) : bool := (k =? PyLeftParen) || (k =? PyLeftBracket) || (k =? PyLeftBrace).
Definition close_mark (k : nat) : bool := (k =? PyRightParen) || (k =? PyRightBracket) || (k =? PyRightBrace).
Definition deeper (k depth : nat) : nat := if open_mark k then S depth else if close_mark k then depth - 1 else depth.

Definition at_ (off : nat) (k : nat) : token := Token k off off.

(** The tokens of the pieces.  [stack]: the levels open; [depth]: the brackets open; [start]: at the start of a line.
    [inner] says whether the end of a line within brackets starts a line. *)
Fixpoint layout (inner : bool) (stack : list nat) (depth : nat) (start : bool) (off : nat) (ps : list piece) : list token :=
  match ps with
  | [] => map (fun _ => at_ off PyDedent) (tl stack)
  | p :: rest =>
      let e := off + List.length (encode (snd p)) in
      let '(stack', ms) := match (if start && (depth =? 0) then line_indent ps else None) with Some n => shift n stack | None => (stack, []) end in
      let leaf := Token (if is_kind p PyNewline && (0 <? depth) then PyWhitespace else kind_of p) off e in
      let start' := if is_kind p PyNewline then (depth =? 0) || inner || start else start && (0 <? depth) in
      (if is_kind p PyWhitespace then leaf :: map (at_ e) ms else map (at_ off) ms ++ [leaf])
      ++ layout inner stack' (deeper (kind_of p) depth) start' e rest
  end.

(** ** What the tokens are for *)
(** The block level after some tokens; [None] if a block is closed that is not open. *)
Fixpoint level (n : nat) (ts : list token) : option nat :=
  match ts with
  | [] => Some n
  | t :: ts =>
      if tk_kind t =? PyIndent then level (S n) ts
      else if tk_kind t =? PyDedent then match n with O => None | S m => level m ts end
      else level n ts
  end.

(** The tokens follow one another without gap from [a] to [b]. *)
Fixpoint tiles (a b : nat) (ts : list token) : Prop :=
  match ts with [] => a = b | t :: ts => tk_start t = a /\ a <= tk_end t /\ tiles (tk_end t) b ts end.

(** No line ends within brackets. *)
Fixpoint flat_brackets (depth : nat) (ps : list piece) : Prop :=
  match ps with
  | [] => True
  | p :: rest => (is_kind p PyNewline = true -> depth = 0) /\ flat_brackets (deeper (kind_of p) depth) rest
  end.

(** ** Programs as trees *)
(** A statement: the lines before it that do not count, its indentation, the pieces of its line, the end of the line and the block under it. *)
Inductive stmt := Stmt (before : list piece) (ws : list Z) (line : list piece) (nl : list Z) (block : list stmt).

Definition indent_piece (ws : list Z) : list piece := match ws with [] => [] | _ => [(Some PyWhitespace, ws)] end.
Fixpoint pieces_of (t : stmt) : list piece :=
  match t with Stmt before ws line nl block => before ++ indent_piece ws ++ line ++ (Some PyNewline, nl) :: concat (map pieces_of block) end.

(** Lines of blanks and comments *)
Inductive vain_lines : list piece -> Prop :=
| VainNone : vain_lines []
| VainLine ws cm nl ps : (cm = [] \/ exists c, cm = [(Some PyComment, c)]) -> vain_lines ps -> vain_lines (indent_piece ws ++ cm ++ (Some PyNewline, nl) :: ps).

Definition count (p : piece) : bool := negb (is_kind p PyWhitespace || is_kind p PyComment || is_kind p PyNewline).
Definition depth_after (line : list piece) : nat := fold_left (fun d p => deeper (kind_of p) d) line 0.
(** The line of a statement starts with a piece that counts, does not contain the end of a line and closes its brackets. *)
Definition good_line (line : list piece) : Prop :=
  (exists p rest, line = p :: rest /\ count p = true) /\ Forall (fun p => is_kind p PyNewline = false) line /\ depth_after line = 0.

(** All statements of a block are indented alike and its blocks are indented more. *)
Inductive indented : nat -> stmt -> Prop :=
| Indented n before ws line nl block : vain_lines before -> columns ws = n -> good_line line ->
    (block <> [] -> exists m, n < m /\ Forall (indented m) block) -> indented n (Stmt before ws line nl block).

(** The kinds that count, with [Indent] and [Dedent] around each block *)
Fixpoint program (t : stmt) : list nat :=
  match t with
  | Stmt _ _ line _ block =>
      map kind_of (filter count line) ++ match block with [] => [] | _ => PyIndent :: concat (map program block) ++ [PyDedent] end
  end.
Definition counts (t : token) : bool := negb ((tk_kind t =? PyWhitespace) || (tk_kind t =? PyComment) || (tk_kind t =? PyNewline)).
Definition counted (ts : list token) : list nat := map tk_kind (filter counts ts).

(** The blank line at the end of the text that is not ended *)
Definition last_line (ps : list piece) : Prop :=
  exists ws cm, ps = indent_piece ws ++ cm /\ (cm = [] \/ exists c, cm = [(Some PyComment, c)]).
