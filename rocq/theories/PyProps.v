(** Theorems about the Python lexer. *)
From Verif Require Import Base Utf8 Utf8Facts ScanSpec CursorModel CursorSpec CursorProofs RopeModel RopeProofs LexModel LexSpec LexProofs.
From Verif Require Import JsonLangSpec JsonLexProofs LangSpec LangLexProofs PyModel PySpec PyProofs PyLexProofs PyLayProofs PyTreeProofs.

(** ** The tokens of a text *)
(** Every text has exactly one cut into pieces, and the tokens are the layout of that cut, from whatever source. *)
Theorem py_tokens : forall src text cs, serves src text -> text = encode cs -> Forall is_scalar cs ->
  exists ps, cut py_piece cs ps /\ (forall ps', cut py_piece cs ps' -> ps' = ps) /\
    py_lex src = Some (layout true [0] 0 true 0 ps ++ [Token PyError (length text) (length text)]).
Proof.
  intros src text cs Hs -> F. destruct (lex_layout src (encode cs) Hs cs (all_reads cs F)) as (ps & C & E). exists ps. split; [exact C|]. split; [|exact E]. intros ps' C'. exact (pieces_same cs ps' ps C' C).
Qed.
Print Assumptions py_tokens.

(** The tokens follow one another without gap from the start of the text to its end. *)
Theorem py_covers : forall src text, serves src text -> valid text ->
  exists ts, py_lex src = Some (ts ++ [Token PyError (length text) (length text)]) /\ tiles 0 (length text) ts.
Proof.
  intros src text Hs (cs & F & E). destruct (py_tokens src text cs Hs E F) as (ps & C & _ & L). eexists. split; [exact L|]. rewrite E. rewrite <- (cut_text _ _ _ C). apply (layout_tiles true ps [0] 0 true 0).
Qed.
Print Assumptions py_covers.

Definition py_of (s : str) := py_lex (flat_source s).
Definition kinds_of (s : str) := option_map (map tk_kind) (py_of s).
Definition nl : str := [10%Z].
Definition py_case : str := lit "def f(a):" ++ nl ++ lit "  # " ++ [195%Z; 169%Z] ++ nl ++ lit "  if a >>= 'x\'" ++ [34%Z] ++ lit "':" ++ nl ++ [9%Z] ++ lit "return 1" ++ nl ++ lit "g()".
Example py_case_valid : valid py_case.
Proof. exists (lit "def f(a):" ++ nl ++ lit "  # " ++ [233%Z] ++ nl ++ lit "  if a >>= 'x\'" ++ [34%Z] ++ lit "':" ++ nl ++ [9%Z] ++ lit "return 1" ++ nl ++ lit "g()"). split; [|reflexivity]. repeat constructor; unfold is_scalar; lia. Qed.
Example py_tokens_case : py_of py_case = Some
  [Token PyDefKeyword 0 3; Token PyWhitespace 3 4; Token PyIdentifier 4 5; Token PyLeftParen 5 6; Token PyIdentifier 6 7; Token PyRightParen 7 8; Token PyColon 8 9; Token PyNewline 9 10;
   Token PyWhitespace 10 12; Token PyComment 12 16; Token PyNewline 16 17;
   Token PyWhitespace 17 19; Token PyIndent 19 19; Token PyIfKeyword 19 21; Token PyWhitespace 21 22; Token PyIdentifier 22 23; Token PyWhitespace 23 24; Token PyRightShiftAssign 24 27; Token PyWhitespace 27 28;
   Token PyString 28 34; Token PyColon 34 35; Token PyNewline 35 36;
   Token PyWhitespace 36 37; Token PyIndent 37 37; Token PyReturnKeyword 37 43; Token PyWhitespace 43 44; Token PyNumber 44 45; Token PyNewline 45 46;
   Token PyDedent 46 46; Token PyDedent 46 46; Token PyIdentifier 46 47; Token PyLeftParen 47 48; Token PyRightParen 48 49; Token PyError 49 49].
Proof. vm_compute. reflexivity. Qed.

(** ** Blocks are closed *)
(** Over the whole text [Indent] and [Dedent] match like brackets; no [Dedent] comes without a block to close. *)
Theorem py_balanced : forall src text ts, serves src text -> valid text -> py_lex src = Some ts -> level 0 ts = Some 0.
Proof.
  intros src text ts Hs (cs & F & E) L. destruct (py_tokens src text cs Hs E F) as (ps & C & _ & L'). rewrite L' in L. injection L as <-. pose proof (layout_level true ps [0] 0 true 0 (cut_plain _ _ C) eq_refl) as B. change (length [0] - 1) with 0 in B. now rewrite level_app, B.
Qed.
Print Assumptions py_balanced.
Example py_balanced_case : level 0 (match py_of (lit "a" ++ nl ++ lit "   b" ++ nl ++ lit "  c") with Some ts => ts | None => [] end) = Some 0 /\
  kinds_of (lit "a" ++ nl ++ lit "   b" ++ nl ++ lit "     c") = Some [PyIdentifier; PyNewline; PyWhitespace; PyIndent; PyIdentifier; PyNewline; PyWhitespace; PyIndent; PyIdentifier; PyDedent; PyDedent; PyError].
Proof. split; vm_compute; reflexivity. Qed.

(** ** Blocks are what the indentation says *)
(** A text whose cut is that of a program tree, of statements of one line: the tokens that count are those of the statements, with
    [Indent] before and [Dedent] after each block.  [v] and [e]: lines of blanks and comments after the last statement. *)
Theorem py_blocks : forall src text cs prog v e, serves src text -> text = encode cs -> Forall is_scalar cs ->
  Forall (indented 0) prog -> vain_lines v -> last_line e -> cut py_piece cs (concat (map pieces_of prog) ++ v ++ e) ->
  exists ts, py_lex src = Some (ts ++ [Token PyError (length text) (length text)]) /\ counted ts = concat (map program prog).
Proof.
  intros src text cs prog v e Hs E F I V L C. destruct (py_tokens src text cs Hs E F) as (ps & _ & U & R). rewrite <- (U _ C) in R. eexists. split; [exact R|]. now apply forest_kinds.
Qed.
Print Assumptions py_blocks.

(** The program
<<
if a:
        # c
  b
  while d:
      e
f
>>
*)
Definition w (s : str) : piece := (Some PyIdentifier, s).
Definition sp (s : str) : piece := (Some PyWhitespace, s).
Definition prog_f : stmt := Stmt [] [] [w (lit "f")] nl [].
Definition prog_e : stmt := Stmt [] (lit "      ") [w (lit "e")] nl [].
Definition prog_d : stmt := Stmt [] (lit "  ") [(Some PyWhileKeyword, lit "while"); sp (lit " "); w (lit "d"); (Some PyColon, lit ":")] nl [prog_e].
Definition prog_b : stmt := Stmt [sp (lit "        "); (Some PyComment, lit "# c"); (Some PyNewline, nl)] (lit "  ") [w (lit "b")] nl [].
Definition prog_if : stmt := Stmt [] [] [(Some PyIfKeyword, lit "if"); sp (lit " "); w (lit "a"); (Some PyColon, lit ":")] nl [prog_b; prog_d].
Definition prog_text : list Z := lit "if a:" ++ nl ++ lit "        # c" ++ nl ++ lit "  b" ++ nl ++ lit "  while d:" ++ nl ++ lit "      e" ++ nl ++ lit "f" ++ nl ++ lit "   #".
Example py_blocks_indented : Forall (indented 0) [prog_if; prog_f].
Proof.
  assert (G : forall p l, count p = true -> Forall (fun p => is_kind p PyNewline = false) (p :: l) -> depth_after (p :: l) = 0 -> good_line (p :: l)) by (intros p l H1 H2 H3; split; [now exists p, l | now split]).
  assert (B : forall n t, indented n t -> indented n t) by auto.
  assert (Ie : indented 6 prog_e) by (constructor; [constructor | reflexivity | apply G; [reflexivity | repeat constructor | reflexivity] | congruence]).
  assert (Id : indented 2 prog_d) by (constructor; [constructor | reflexivity | apply G; [reflexivity | repeat constructor | reflexivity] | intros _; exists 6; split; [lia | constructor; [exact Ie | constructor]]]).
  assert (Ib : indented 2 prog_b). { constructor; [|reflexivity | apply G; [reflexivity | repeat constructor | reflexivity] | congruence]. apply (VainLine (lit "        ") [(Some PyComment, lit "# c")] nl []); [right; now eexists | constructor]. }
  assert (If : indented 0 prog_f) by (constructor; [constructor | reflexivity | apply G; [reflexivity | repeat constructor | reflexivity] | congruence]).
  assert (Ii : indented 0 prog_if) by (constructor; [constructor | reflexivity | apply G; [reflexivity | repeat constructor | reflexivity] | intros _; exists 2; split; [lia | constructor; [exact Ib | constructor; [exact Id | constructor]]]]).
  constructor; [exact Ii | constructor; [exact If | constructor]].
Qed.
Example py_blocks_case :
  concat (map program [prog_if; prog_f]) = [PyIfKeyword; PyIdentifier; PyColon; PyIndent; PyIdentifier; PyWhileKeyword; PyIdentifier; PyColon; PyIndent; PyIdentifier; PyDedent; PyDedent; PyIdentifier] /\
  text_of_pieces (concat (map pieces_of [prog_if; prog_f]) ++ [] ++ [sp (lit "   "); (Some PyComment, lit "#")]) = prog_text /\
  option_map counted (py_of prog_text) = Some (concat (map program [prog_if; prog_f]) ++ [PyError]).
Proof. split; [reflexivity|]. split; vm_compute; reflexivity. Qed.

(** A line indented less than the line above, but not like any line of an open block: no error, the block is closed, and the next
    line in the same column opens a block. *)
Definition py_ragged : str := lit "if x:" ++ nl ++ lit "    a" ++ nl ++ lit "  b" ++ nl ++ lit "  c" ++ nl.
Theorem py_ragged_refuted : exists before line, py_ragged = before ++ line ++ lit "  b" ++ nl ++ lit "  c" ++ nl /\
  option_map counted (py_of py_ragged) =
    Some [PyIfKeyword; PyIdentifier; PyColon; PyIndent; PyIdentifier; PyDedent; PyIdentifier; PyIndent; PyIdentifier; PyDedent; PyError].
Proof. exists (lit "if x:" ++ nl), (lit "    a" ++ nl). split; vm_compute; reflexivity. Qed.
Print Assumptions py_ragged_refuted.
(** A tabulator after a blank: to Python both lines are in column eight; the lexer says nine and opens a block. *)
Theorem py_tab_refuted : exists s, s = lit "if x:" ++ nl ++ [9%Z] ++ lit "a" ++ nl ++ [32%Z; 9%Z] ++ lit "b" ++ nl /\ option_map counted (py_of s) = Some [PyIfKeyword; PyIdentifier; PyColon; PyIndent; PyIdentifier; PyIndent; PyIdentifier; PyDedent; PyDedent; PyError].
Proof. eexists. split; [reflexivity|]. vm_compute. reflexivity. Qed.
Print Assumptions py_tab_refuted.

(** ** Lines within brackets *)
(** Where no line ends within brackets, brackets make no difference to the lines. *)
Theorem py_multiline_partial : forall src text cs ps, serves src text -> text = encode cs -> Forall is_scalar cs -> cut py_piece cs ps -> flat_brackets 0 ps ->
  py_lex src = Some (layout false [0] 0 true 0 ps ++ [Token PyError (length text) (length text)]).
Proof. intros src text cs ps Hs E F C B. destruct (py_tokens src text cs Hs E F) as (ps' & _ & U & R). rewrite <- (U _ C) in R. now rewrite R, (layout_flat _ _ _ _ _ B). Qed.
Print Assumptions py_multiline_partial.

(** Where one does, the next line starts a line: after the bracket that closes, in the middle of a line, the lexer measures the
    indentation. *)
Definition py_joined : list Z := lit "x = (1," ++ nl ++ lit "2) + 3" ++ nl.
Definition joined_pieces : list piece :=
  [w (lit "x"); sp (lit " "); (Some PyAssign, lit "="); sp (lit " "); (Some PyLeftParen, lit "("); (Some PyNumber, lit "1"); (Some PyComma, lit ","); (Some PyNewline, nl);
   (Some PyNumber, lit "2"); (Some PyRightParen, lit ")"); sp (lit " "); (Some PyPlus, lit "+"); sp (lit " "); (Some PyNumber, lit "3"); (Some PyNewline, nl)].
Definition has_kind (k : nat) (ts : list token) : bool := existsb (fun t => tk_kind t =? k) ts.
Theorem py_multiline_refuted : exists cs ts, py_of (encode cs) = Some ts /\ cs = py_joined /\ text_of_pieces joined_pieces = cs /\
  (forall off, has_kind PyIndent (layout false [0] 0 true off joined_pieces) = false) /\ has_kind PyIndent ts = true.
Proof. exists py_joined. eexists. split; [vm_compute; reflexivity|]. split; [reflexivity|]. split; [reflexivity|]. split; [intros off; reflexivity | reflexivity]. Qed.
Print Assumptions py_multiline_refuted.
Example py_multiline_case : kinds_of (lit "f(1)" ++ nl ++ lit "[2]") = Some [PyIdentifier; PyLeftParen; PyNumber; PyRightParen; PyNewline; PyLeftBracket; PyNumber; PyRightBracket; PyError] /\
  kinds_of (lit "f(1," ++ nl ++ lit "2)") = Some [PyIdentifier; PyLeftParen; PyNumber; PyComma; PyWhitespace; PyNumber; PyRightParen; PyError].
Proof. split; vm_compute; reflexivity. Qed.

(** ** Words, literals and operators *)
(** Whatever the table of pieces says starts the text is the first token. *)
Theorem py_first_partial : forall k s r, py_piece (Some k) s r -> Forall is_scalar (s ++ r) -> k <> PyWhitespace ->
  exists ts, py_of (encode (s ++ r)) = Some (Token k 0 (length (encode s)) :: ts).
Proof.
  intros k s r P F Nw. assert (Fr : Forall is_scalar r) by (apply Forall_app in F; apply F). assert (Vr : valid (encode r)) by now exists r. assert (V : valid (encode (s ++ r))) by now exists (s ++ r).
  destruct (py_tokens _ _ r (flat_serves _ Vr) eq_refl Fr) as (ps & C & _). assert (C' : cut py_piece (s ++ r) ((Some k, s) :: ps)). { constructor; [|exact P | exact C]. intros ->. now apply piece_nonempty in P. }
  destruct (py_tokens _ _ (s ++ r) (flat_serves _ V) eq_refl F) as (ps' & _ & U & L). rewrite <- (U _ C') in L. unfold py_of. rewrite L, layout_cons. eexists.
  assert (is_kind (Some k, s) PyWhitespace = false) as -> by now apply Nat.eqb_neq.
  assert (snd (marks_here [0] 0 true (@cons piece (Some k, s) ps)) = []) as ->. { unfold marks_here. cbn [andb Nat.eqb line_indent]. assert (is_kind (Some k, s) PyWhitespace = false) as -> by now apply Nat.eqb_neq. destruct (vain (@cons piece (Some k, s) ps)); reflexivity. }
  cbn [map app]. unfold leaf_of. cbn [Nat.ltb Nat.leb snd]. rewrite andb_false_r. reflexivity.
Qed.
Print Assumptions py_first_partial.
Example py_first_case : py_piece (Some PyLambdaKeyword) (lit "lambda") (lit ": 1") /\ py_piece (Some PyDoubleSlashAssign) (lit "//=") (lit "= 2").
Proof.
  split.
  - change (lit "lambda") with [108; 97; 109; 98; 100; 97]%Z. change (lit ": 1") with [58; 32; 49]%Z.
    apply PkWord; [left; lia | repeat (apply Forall_cons; [left; left; lia|]); apply Forall_nil | intros c E; injection E as <-; intros [[H | [H | H]] | H]; unfold digit in *; lia | left; vm_compute; tauto | discriminate].
  - apply PkOperator; [vm_compute; tauto|]. intros o' k' x I. vm_compute in I. repeat (destruct I as [I | I]; [injection I as <- <-; intros _; cbn; lia|]). destruct I.
Qed.

(** What Python has and the lexer does not. *)
Theorem py_literals_refuted : exists s1 s2 s3 s4 s5,
  s1 = lit "a != b" /\ kinds_of s1 = Some [PyIdentifier; PyWhitespace; PyError; PyAssign; PyWhitespace; PyIdentifier; PyError] /\
  s2 = lit "rb'x'" /\ kinds_of s2 = Some [PyIdentifier; PyString; PyError] /\
  s3 = lit "1e5 + 0xff" /\ kinds_of s3 = Some [PyNumber; PyIdentifier; PyWhitespace; PyPlus; PyWhitespace; PyNumber; PyIdentifier; PyError] /\
  s4 = lit "1 + \" ++ nl ++ lit "  2" /\ kinds_of s4 = Some [PyNumber; PyWhitespace; PyPlus; PyWhitespace; PyError; PyNewline; PyWhitespace; PyIndent; PyNumber; PyDedent; PyError] /\
  s5 = encode [233%Z] ++ lit " = ..." /\ kinds_of s5 = Some [PyError; PyWhitespace; PyAssign; PyWhitespace; PyDot; PyDot; PyDot; PyError].
Proof. do 5 eexists. repeat (split; [reflexivity|]; split; [vm_compute; reflexivity|]). split; [reflexivity|]. vm_compute. reflexivity. Qed.
Print Assumptions py_literals_refuted.
