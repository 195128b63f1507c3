(** Theorems about the SQL lexer and parser. *)
From Verif Require Import Base Utf8 LexModel TreeModel TreeSpec ParserModel ParserSpec JsonLangSpec LangModel LangSpec LangParseProofs SqlModel SqlSpec SqlTreeProofs.
From Verif Require SqlLexProofs.

(** C194: the tokens of a text are those of the one division of it into pieces; a piece without a kind has no token. *)
Theorem sql_tokens alnum upper cs : Forall is_scalar cs -> exists ps, cut (sql_piece alnum upper) cs ps /\ (forall ps', cut (sql_piece alnum upper) cs ps' -> ps' = ps) /\
  sql_lex alnum upper (encode cs) = Some (spans 0 ps ++ [Token QEof (length (encode cs)) (length (encode cs))]).
Proof.
  intros Sc. destruct (SqlLexProofs.sql_lex_cut alnum upper cs Sc) as (ps & C & E). exists ps. split; [exact C|]. split; [|exact E]. intros ps' C'.
  exact (LangLexProofs.cut_unique _ cs ps' (SqlLexProofs.sql_pieces_unique alnum upper) C' ps C).
Qed.
Print Assumptions sql_tokens.

(** Letters, digits and capitals for the examples *)
Definition al (c : Z) : bool := (((97 <=? c) && (c <=? 122)) || ((65 <=? c) && (c <=? 90)) || ((48 <=? c) && (c <=? 57)))%Z%bool.
Definition up (s : str) : str := map (fun c => if ((97 <=? c) && (c <=? 122))%Z then (c - 32)%Z else c) s.
Definition kinds_of (t : str) : option (list nat) := option_map (map tk_kind) (sql_lex al up t).
Ltac scalars := repeat (apply Forall_cons; [unfold is_scalar; cbn; lia|]); apply Forall_nil.

Example sql_tokens_run :
  kinds_of (lit "select x_1<=1.5e+3--c") = Some [QSelect; QWhitespace; QIdentifier; QLessEqual; QFloatLiteral; QComment; QEof] /\
  kinds_of (lit "1__0.x/*a*/'it\'s' ? <>!=") = Some [QNumberLiteral; QDot; QIdentifier; QComment; QStringLiteral; QWhitespace; QError; QWhitespace; QNotEqual; QNotEqual; QEof] /\
  kinds_of (lit "Auto_Increment ""open") = Some [QAutoIncrement; QWhitespace; QStringLiteral; QEof].
Proof. vm_compute. split; [reflexivity|]. split; reflexivity. Qed.

(** The tokens do not cover the text: an exclamation mark of its own has none. *)
Theorem sql_tiling_refuted : exists cs toks, Forall is_scalar cs /\ sql_lex al up (encode cs) = Some toks /\
  encode cs <> flat_map (fun t => firstn (tk_end t - tk_start t) (skipn (tk_start t) (encode cs))) toks.
Proof. exists (lit "!"). eexists. split; [scalars|]. split; [vm_compute; reflexivity|]. vm_compute. discriminate. Qed.
Print Assumptions sql_tiling_refuted.

(** C195: the parser ends on every text.  The leaves of the tree are the tokens in their order, from the first one that counts; tokens that
    do not count are all there. *)
Theorem sql_parse_partial alnum upper cs ps fuel : Forall is_scalar cs -> (Z.of_nat (length (encode cs)) < 2 ^ 32)%Z -> cut (sql_piece alnum upper) cs ps ->
  2 + length ps < fuel -> exists w qs ch errs, ps = w ++ qs /\ Forall trivia w /\ settled qs /\
  sql_tree alnum upper fuel (encode cs) = Some (gnode NRoot ch, errs) /\ thinned (flat_map piece_yield qs ++ [(QEof, 0)]) (flat_map yield ch).
Proof. intros Sc L C F. exact (tree_ends alnum upper cs ps Sc L C fuel F). Qed.
Print Assumptions sql_parse_partial.

Example sql_parse_run : exists ps root errs, cut (sql_piece al up) (lit " update t set a=(1,;") ps /\ length ps = 13 /\
  sql_tree al up 20 (lit " update t set a=(1,;") = Some (root, errs) /\ flat_map yield [root] = [(QUpdate, 6); (QWhitespace, 1); (QWhitespace, 1); (QWhitespace, 1); (QSemicolon, 1)].
Proof.
  eexists _, _, _. split; [apply (pieces_cut al up 30); vm_compute; reflexivity|]. split; [reflexivity|]. split; [vm_compute; reflexivity|]. vm_compute. reflexivity.
Qed.

(** A text can lose almost everything without a diagnostic. *)
Theorem sql_leaves_refuted : exists fuel root, sql_tree al up fuel (lit "foo bar;create table t(a int);") = Some (root, []) /\
  yield root = [(QWhitespace, 1); (QSemicolon, 1); (QCreate, 6); (QWhitespace, 1); (QWhitespace, 1); (QWhitespace, 1); (QSemicolon, 1)].
Proof. eexists 40, _. split; [vm_compute; reflexivity|]. vm_compute. reflexivity. Qed.
Print Assumptions sql_leaves_refuted.

(** C196: a text of the grammar has the tree and the number of diagnostics that the grammar gives. *)
Theorem sql_program_partial alnum upper cs w qs ts e fuel : Forall is_scalar cs -> (Z.of_nat (length (encode cs)) < 2 ^ 32)%Z -> cut (sql_piece alnum upper) cs (w ++ qs) ->
  Forall trivia w -> program qs ts e -> 2 + length (w ++ qs) < fuel ->
  exists errs, sql_tree alnum upper fuel (encode cs) = Some (gnode NRoot ts, errs) /\ length errs = e.
Proof. intros Sc L C F P Fu. exact (tree_program alnum upper cs (w ++ qs) Sc L C fuel w qs ts e eq_refl F P Fu). Qed.
Print Assumptions sql_program_partial.

Ltac notin := let k := fresh in let E := fresh in intros k E; cbn in E; try discriminate; injection E as <-; vm_compute; intuition discriminate.
Ltac blanks := repeat (apply Forall_cons; [right; cbn; intuition|]); apply Forall_nil.
Ltac counts := let q := fresh in let E := fresh in let T := fresh in intros q E; cbn in E; try discriminate; injection E as <-; intros [T | T]; [discriminate | vm_compute in T; intuition discriminate].
Ltac nosemi := repeat (apply Forall_cons; [discriminate|]); apply Forall_nil.

Definition ws : piece := (Some QWhitespace, lit " ").
Definition demo : list piece :=
  [(Some QSelect, lit "select"); ws; (Some QNumberLiteral, lit "1"); (Some QPlus, lit "+"); (Some QNumberLiteral, lit "2"); (Some QStar, lit "*"); (Some QIdentifier, lit "x");
   (Some QComma, lit ","); (Some QStringLiteral, lit "'a'"); ws; (Some QFrom, lit "from"); ws; (Some QIdentifier, lit "t"); (Some QSemicolon, lit ";");
   (Some QDrop, lit "drop"); ws; (Some QIdentifier, lit "t"); (Some QSemicolon, lit ";"); (Some QIdentifier, lit "x"); ws; (Some QIdentifier, lit "y")].
Definition demo_sum : green :=
  gnode NDropStatement [gnode NExpression [leaf QNumberLiteral (lit "1")]; leaf QPlus (lit "+");
    gnode NDropStatement [gnode NExpression [leaf QNumberLiteral (lit "2")]; leaf QStar (lit "*"); gnode NErrorNode [leaf QIdentifier (lit "x")]]].
Definition demo_trees : list green :=
  [gnode NSelectStatement [leaf QSelect (lit "select"); leaf QWhitespace (lit " "); demo_sum; leaf QComma (lit ",");
     gnode NExpression [leaf QStringLiteral (lit "'a'"); leaf QWhitespace (lit " ")]; leaf QFrom (lit "from"); leaf QWhitespace (lit " ")];
   leaf QSemicolon (lit ";");
   gnode NDropStatement [leaf QDrop (lit "drop"); leaf QWhitespace (lit " "); leaf QSemicolon (lit ";")];
   leaf QWhitespace (lit " ")].
Example sql_program_run : cut (sql_piece al up) (lit "select 1+2*x,'a' from t;drop t;x y") demo /\ program demo demo_trees 1 /\
  sql_tree al up 40 (lit "select 1+2*x,'a' from t;drop t;x y") = Some (gnode NRoot demo_trees, [(0, 22)]).
Proof.
  split; [apply (pieces_cut al up 40); vm_compute; reflexivity|]. split; [|vm_compute; reflexivity].
  assert (SumG : groups 0 [(Some QNumberLiteral, lit "1"); (Some QPlus, lit "+"); (Some QNumberLiteral, lit "2"); (Some QStar, lit "*"); (Some QIdentifier, lit "x")] demo_sum).
  { apply (GBinary 0 10 QPlus (lit "+") [] [(Some QNumberLiteral, lit "1")] _ [(Some QNumberLiteral, lit "2"); (Some QStar, lit "*"); (Some QIdentifier, lit "x")]); [lia | apply LSum; cbn; tauto | constructor | apply (GLiteral 10 QNumberLiteral _ []); [cbn; tauto | constructor]|].
    apply (GBinary 11 11 QStar (lit "*") [] [(Some QNumberLiteral, lit "2")] _ [(Some QIdentifier, lit "x")]); [lia | apply LProduct; cbn; tauto | constructor | apply (GLiteral 11 QNumberLiteral _ []); [cbn; tauto | constructor]|].
    apply (GOther 12 QIdentifier _ []); [intros [T | T]; [discriminate | vm_compute in T; intuition discriminate] | vm_compute; intuition discriminate | constructor]. }
  assert (It : items [(Some QNumberLiteral, lit "1"); (Some QPlus, lit "+"); (Some QNumberLiteral, lit "2"); (Some QStar, lit "*"); (Some QIdentifier, lit "x"); (Some QComma, lit ","); (Some QStringLiteral, lit "'a'"); ws]
     [demo_sum; leaf QComma (lit ","); gnode NExpression [leaf QStringLiteral (lit "'a'"); leaf QWhitespace (lit " ")]]).
  { apply (IComma _ _ (lit ",") [] [(Some QStringLiteral, lit "'a'"); ws] [gnode NExpression [leaf QStringLiteral (lit "'a'"); leaf QWhitespace (lit " ")]] SumG); [notin | constructor|].
    apply (INext [(Some QStringLiteral, lit "'a'"); ws] _ [] []); [apply (GLiteral 0 QStringLiteral _ [ws]); [cbn; tauto | blanks] | notin | constructor | notin]. }
  refine (ProgramFrom (lit "select") [ws] _ _ (lit "from") [ws] [(Some QIdentifier, lit "t"); (Some QSemicolon, lit ";");
   (Some QDrop, lit "drop"); ws; (Some QIdentifier, lit "t"); (Some QSemicolon, lit ";"); (Some QIdentifier, lit "x"); ws; (Some QIdentifier, lit "y")]
   [leaf QSemicolon (lit ";"); gnode NDropStatement [leaf QDrop (lit "drop"); leaf QWhitespace (lit " "); leaf QSemicolon (lit ";")]; leaf QWhitespace (lit " ")] 0 _ It _ _ _ _); [blanks | blanks | counts | notin|].
  apply (ProgramLost [(Some QIdentifier, lit "t")] (lit ";") [] [(Some QDrop, lit "drop"); ws; (Some QIdentifier, lit "t"); (Some QSemicolon, lit ";"); (Some QIdentifier, lit "x"); ws; (Some QIdentifier, lit "y")]
    [gnode NDropStatement [leaf QDrop (lit "drop"); leaf QWhitespace (lit " "); leaf QSemicolon (lit ";")]; leaf QWhitespace (lit " ")]); [counts | nosemi | notin | constructor | counts|].
  apply (ProgramSkipped QDrop NDropStatement (lit "drop") [ws] [(Some QIdentifier, lit "t")] (lit ";") [] [(Some QIdentifier, lit "x"); ws; (Some QIdentifier, lit "y")] [leaf QWhitespace (lit " ")]);
    [constructor | blanks | counts | nosemi | constructor | counts|].
  apply (ProgramLostEnd [(Some QIdentifier, lit "x"); ws; (Some QIdentifier, lit "y")]); [counts | nosemi | notin].
Qed.

(** A clean text whose tree is not the expected one: the node of an addition is a drop statement, and the statement after the semicolon is
    an item of the first one. *)
Theorem sql_statements_refuted : exists fuel root, sql_tree al up fuel (lit "select 1+2;select 3") = Some (root, []) /\
  root = gnode NRoot [gnode NSelectStatement [leaf QSelect (lit "select"); leaf QWhitespace (lit " ");
    gnode NDropStatement [gnode NExpression [leaf QNumberLiteral (lit "1")]; leaf QPlus (lit "+"); gnode NExpression [leaf QNumberLiteral (lit "2")]];
    gnode NErrorNode [leaf QSemicolon (lit ";")]; gnode NErrorNode [leaf QSelect (lit "select"); leaf QWhitespace (lit " ")];
    gnode NExpression [leaf QNumberLiteral (lit "3")]; gnode NErrorNode [leaf QEof []]]].
Proof. eexists 40, _. split; [vm_compute; reflexivity|]. vm_compute. reflexivity. Qed.
Print Assumptions sql_statements_refuted.

(** No text has a name of the kind that the parser expects after FROM, INTO and UPDATE; so the plainest query has a diagnostic and loses the table. *)
Theorem sql_names_refuted : (forall alnum upper cs ps, cut (sql_piece alnum upper) cs ps -> Forall (fun p => fst p <> Some QIdentifier_) ps) /\
  exists fuel root, sql_tree al up fuel (lit "select a from t") = Some (root, [(0, 14)]) /\
  root = gnode NRoot [gnode NSelectStatement [leaf QSelect (lit "select"); leaf QWhitespace (lit " "); gnode NErrorNode [leaf QIdentifier (lit "a"); leaf QWhitespace (lit " ")];
    leaf QFrom (lit "from"); leaf QWhitespace (lit " ")]].
Proof.
  split.
  - intros alnum upper cs ps C. induction C as [| k x r ps _ P _ IH]; [constructor|]. constructor; [exact (proj1 (piece_no_name _ _ _ _ _ P)) | exact IH].
  - eexists 40, _. split; [vm_compute; reflexivity|]. vm_compute. reflexivity.
Qed.
Print Assumptions sql_names_refuted.
