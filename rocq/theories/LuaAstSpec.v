(** What the Lua builder is compared with: a grammar of programs with the values they stand for.  The right sides are pieces
    as in LuaSpec.v; a token brings the blanks, line ends and comments after it along. *)
From Verif Require Import Base Utf8 LexModel TreeModel JsonLangSpec LangSpec LuaModel LuaSpec LuaAstModel.

(** The binary operators, from the loosest to the tightest; [true]: to the right *)
Definition operators : list (nat * bool * list nat) :=
  [(1, false, [UOr]); (2, false, [UAnd]); (3, false, [ULt; UGt; ULtEq; UGtEq; UTildeEq; UEqEq]); (4, false, [UPipe]); (5, false, [UTilde]);
   (6, false, [UAmpersand]); (7, false, [ULtLt; UGtGt]); (8, true, [UDotDot]); (9, false, [UPlus; UMinus]);
   (10, false, [UStar; USlash; USlashSlash; UPercent]); (12, true, [UCaret])].
Definition operator (k p : nat) (right : bool) : Prop := exists ks, In (p, right, ks) operators /\ In k ks.
Definition unary_level : nat := 11.
(** what follows an operand at once: member, call, index *)
Definition suffixes : list nat := [UDot; UColon; ULeftParen; ULeftBrace; UString; ULeftBracket].
(** The expression is over where such a token is next. *)
Definition over (k : nat) : Prop := ~ In k suffixes /\ forall p right, ~ operator k p right.

Definition tok (k : nat) (s : list Z) (e : list piece) : Prop := exists w, e = (Some k, s) :: w /\ Forall trivia w.
(** The kind of the first piece, or of what follows *)
Definition first (e : list piece) (k : nat) : nat := match e with (Some k', _) :: _ => k' | _ => k end.

(** [a, b, c]: one name or more with commas (or points) between them *)
Inductive names (sep : nat) : list piece -> list str -> Prop :=
| NamesOne e s : tok UIdentifier s e -> names sep e [encode s]
| NamesMore e c r s x vs : tok UIdentifier s e -> tok sep x c -> names sep r vs -> names sep (e ++ c ++ r) (encode s :: vs).
(** What stands between the parentheses of a function: names, and perhaps three points at the end *)
Inductive parameters : list piece -> list str -> bool -> Prop :=
| ParNone : parameters [] [] false
| ParVararg e s : tok UDotDotDot s e -> parameters e [] true
| ParNames e vs : names UComma e vs -> parameters e vs false
| ParBoth e c d vs x s : names UComma e vs -> tok UComma x c -> tok UDotDotDot s d -> parameters (e ++ c ++ d) vs true.

Section Grammar.
  Context {F : Type} (parse : str -> option F).

  Inductive literal : nat -> list Z -> uexpr F -> Prop :=
  | LNil s : literal UNil s ENil
  | LTrue s : literal UTrue s (EBool true)
  | LFalse s : literal UFalse s (EBool false)
  | LNumber s v : parse (encode s) = Some v -> literal UNumber s (ENumber v)
  | LString q s : quote q -> literal UString (q :: s ++ [q]) (EString (encode s)).

  (** a semicolon, or none and none to come *)
  Inductive is_semicolon : nat -> list piece -> Prop :=
  | SemiNone k : k <> USemicolon -> is_semicolon k []
  | SemiOne k z s : tok USemicolon s z -> is_semicolon k z.

  (** [is_expr l m e v]: the pieces [e] are an expression for [v].  [l]: the loosest operator on the way down to its first token,
      and [m]: on the way down to its last token; 14 if there is none.  An operator to the left of an operand of which [m] is
      not larger would take a part of it, and likewise on the right. *)
  Inductive is_expr : nat -> nat -> list piece -> uexpr F -> Prop :=
  | XLiteral k s e v : literal k s v -> tok k s e -> is_expr 14 14 e v
  | XName s e : tok UIdentifier s e -> is_expr 14 14 e (EName (encode s))
  | XParen a b e l m s t v : tok ULeftParen s a -> is_expr l m e v -> tok URightParen t b -> is_expr 14 14 (a ++ e ++ b) v
  | XFunction a e s ps va b : tok UFunction s a -> is_func e ps va b -> is_expr 14 14 (a ++ e) (EFunction ps va b)
  | XTable e fs : is_table e fs -> is_expr 14 14 e (ETable fs)
  | XMember e1 a b l m k x s t : is_expr l m e1 t -> 13 < m -> In k [UDot; UColon] -> tok k x a -> tok UIdentifier s b ->
      is_expr (min 13 l) 14 (e1 ++ a ++ b) (EMember t (encode s) (k =? UColon))
  | XCall e1 e2 l m f vs : is_expr l m e1 f -> 13 < m -> is_args e2 vs -> is_expr (min 13 l) 14 (e1 ++ e2) (ECall f vs)
  | XUnary a e k s l m v : In k [UMinus; UNot; UHash; UTilde] -> tok k s a -> is_expr l m e v -> unary_level <= l ->
      is_expr 14 (min unary_level m) (a ++ e) (EUnary (encode s) v)
  | XBinary e1 a e2 l1 m1 l2 m2 k p right s v1 v2 :
      operator k p right -> is_expr l1 m1 e1 v1 -> p < m1 -> tok k s a -> is_expr l2 m2 e2 v2 -> (if right then p else S p) <= l2 ->
      is_expr (min p l1) (min (if right then p else S p) m2) (e1 ++ a ++ e2) (EBinary v1 (encode s) v2)
  (** one expression or more, with commas *)
  with is_exprs : list piece -> list (uexpr F) -> Prop :=
  | XsOne l m e v : is_expr l m e v -> is_exprs e [v]
  | XsMore l m e c r v x vs : is_expr l m e v -> tok UComma x c -> is_exprs r vs -> is_exprs (e ++ c ++ r) (v :: vs)
  with is_args : list piece -> list (uexpr F) -> Prop :=
  | ArgNone a b s t : tok ULeftParen s a -> tok URightParen t b -> is_args (a ++ b) []
  | ArgSome a e b s t vs : tok ULeftParen s a -> is_exprs e vs -> tok URightParen t b -> is_args (a ++ e ++ b) vs
  | ArgTable e fs : is_table e fs -> is_args e [ETable fs]
  | ArgString q s e : quote q -> tok UString (q :: s ++ [q]) e -> is_args e [EString (encode s)]
  with is_table : list piece -> list (ufield F) -> Prop :=
  | Table a e b s t fs : tok ULeftBrace s a -> is_fields e fs -> tok URightBrace t b -> is_table (a ++ e ++ b) fs
  (** with commas or semicolons, also after the last *)
  with is_fields : list piece -> list (ufield F) -> Prop :=
  | FsNone : is_fields [] []
  | FsOne e f : is_field e f -> is_fields e [f]
  | FsMore e c r f k x fs : is_field e f -> In k [UComma; USemicolon] -> tok k x c -> is_fields r fs -> is_fields (e ++ c ++ r) (f :: fs)
  with is_field : list piece -> ufield F -> Prop :=
  | FdList l m e v : is_expr l m e v -> is_field e (FList v)
  | FdNamed a b e l m s t v : tok UIdentifier s a -> tok UEq t b -> is_expr l m e v -> is_field (a ++ b ++ e) (FNamed (encode s) v)
  with is_func : list piece -> list str -> bool -> list (ustmt F) -> Prop :=
  | Func a e b c d s t u ps va ss : tok ULeftParen s a -> parameters e ps va -> tok URightParen t b -> is_block UEnd c ss -> tok UEnd u d ->
      is_func (a ++ e ++ b ++ c ++ d) ps va ss
  (** [is_block k e ss]: statements with a token [k] after them *)
  with is_block : nat -> list piece -> list (ustmt F) -> Prop :=
  | BNone k : is_block k [] []
  | BMore k e r v vs : is_stmt (first r k) e v -> is_block k r vs -> is_block k (e ++ r) (v :: vs)
  (** [is_stmt k e v]: a statement with a token [k] after it *)
  with is_stmt : nat -> list piece -> ustmt F -> Prop :=
  | TLocal k a e z s vs : tok ULocal s a -> names UComma e vs -> is_semicolon k z -> ~ In (first z k) [UComma; UEq] -> is_stmt k (a ++ e ++ z) (SLocal vs [])
  | TLocalValues k a e b xs z s t vs es : tok ULocal s a -> names UComma e vs -> tok UEq t b -> is_exprs xs es -> is_semicolon k z -> over (first z k) -> first z k <> UComma ->
      is_stmt k (a ++ e ++ b ++ xs ++ z) (SLocal vs es)
  | TAssign k e1 b e2 z t vs es : is_exprs e1 vs -> first e1 UEof <> UFunction -> tok UEq t b -> is_exprs e2 es -> is_semicolon k z -> over (first z k) -> first z k <> UComma ->
      is_stmt k (e1 ++ b ++ e2 ++ z) (SAssign vs es)
  | TExpr k l m e z v : is_expr l m e v -> first e UEof <> UFunction -> is_semicolon k z -> over (first z k) -> ~ In (first z k) [UComma; UEq] -> is_stmt k (e ++ z) (SExpr v)
  | TReturn k a z s : tok UReturn s a -> is_semicolon k z -> In (first z k) [USemicolon; UEnd; UElse; UElseif; UUntil] -> is_stmt k (a ++ z) (SReturn [])
  | TReturnValues k a e z s es : tok UReturn s a -> is_exprs e es -> is_semicolon k z -> over (first z k) -> first z k <> UComma -> is_stmt k (a ++ e ++ z) (SReturn es)
  | TIf k a c t b r s x l m v ss es el : tok UIf s a -> is_expr l m c v -> tok UThen x t -> is_block (first r UEof) b ss -> is_alternatives r es el ->
      is_stmt k (a ++ c ++ t ++ b ++ r) (SIf v ss es el)
  | TWhile k a c t b d s x y l m v ss : tok UWhile s a -> is_expr l m c v -> tok UDo x t -> is_block UEnd b ss -> tok UEnd y d ->
      is_stmt k (a ++ c ++ t ++ b ++ d) (SWhile v ss)
  | TNumeric k a n q e1 c1 e2 st t b d s s1 s2 s3 x y l1 m1 l2 m2 v1 v2 v3 ss :
      tok UFor s a -> tok UIdentifier s1 n -> tok UEq s2 q -> is_expr l1 m1 e1 v1 -> tok UComma s3 c1 -> is_expr l2 m2 e2 v2 -> is_step st v3 ->
      tok UDo x t -> is_block UEnd b ss -> tok UEnd y d ->
      is_stmt k (a ++ n ++ q ++ e1 ++ c1 ++ e2 ++ st ++ t ++ b ++ d) (SNumeric (encode s1) v1 v2 v3 ss)
  | TGeneric k a n i e t b d s s1 x y vs es ss : tok UFor s a -> names UComma n vs -> tok UIn s1 i -> is_exprs e es -> tok UDo x t -> is_block UEnd b ss -> tok UEnd y d ->
      is_stmt k (a ++ n ++ i ++ e ++ t ++ b ++ d) (SGeneric vs es ss)
  | TRepeat k a b u c s x l m ss v : tok URepeat s a -> is_block UUntil b ss -> tok UUntil x u -> is_expr l m c v -> over k ->
      is_stmt k (a ++ b ++ u ++ c) (SRepeat ss v)
  | TFunction k a n e s vs ps va ss : tok UFunction s a -> names UDot n vs -> is_func e ps va ss -> is_stmt k (a ++ n ++ e) (SFunction vs None ps va ss)
  | TBreak k a s : tok UBreak s a -> is_stmt k a SBreak
  | TDo k a b d s x ss : tok UDo s a -> is_block UEnd b ss -> tok UEnd x d -> is_stmt k (a ++ b ++ d) (SDo ss)
  | TGoto k a n s x : tok UGoto s a -> tok UIdentifier x n -> is_stmt k (a ++ n) (SGoto (encode x))
  | TLabel k a n b s x t : tok UColonColon s a -> tok UIdentifier x n -> tok UColonColon t b -> is_stmt k (a ++ n ++ b) (SLabel (encode x))
  with is_step : list piece -> option (uexpr F) -> Prop :=
  | StepNone : is_step [] None
  | StepSome c e s l m v : tok UComma s c -> is_expr l m e v -> is_step (c ++ e) (Some v)
  (** the rest of a conditional statement *)
  with is_alternatives : list piece -> list (uexpr F * list (ustmt F)) -> option (list (ustmt F)) -> Prop :=
  | AltNone d s : tok UEnd s d -> is_alternatives d [] None
  | AltElse a b d s t ss : tok UElse s a -> is_block UEnd b ss -> tok UEnd t d -> is_alternatives (a ++ b ++ d) [] (Some ss)
  | AltElseif a c t b r s x l m v ss es el : tok UElseif s a -> is_expr l m c v -> tok UThen x t -> is_block (first r UEof) b ss -> is_alternatives r es el ->
      is_alternatives (a ++ c ++ t ++ b ++ r) ((v, ss) :: es) el.
End Grammar.
