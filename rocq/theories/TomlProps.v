(** Theorems about the TOML lexer and parser. *)
From Verif Require Import Base Utf8 Utf8Facts ScanSpec CursorModel CursorSpec CursorProofs RopeModel RopeProofs LexModel LexSpec LexProofs LexLoopProofs.
From Verif Require Import TreeModel TreeSpec ParserModel ParserSpec ParserProofs.
From Verif Require Import JsonLangSpec JsonLexProofs LangModel LangSpec LangLexProofs LangParseProofs FlatProofs TomlModel TomlSpec TomlProofs.

(** ** The tokens of a text *)
(** Every text can be cut; where characters outside ASCII are in comments only, the cut is what the lexer answers. *)
Theorem toml_tokens_partial : forall src text slice cs, serves src text -> (forall a b s, is_boundary text a = true -> reads text a b s -> slice a b = encode s) ->
  text = encode cs -> Forall is_scalar cs ->
  exists ps, cut toml_token cs ps /\ text_of_pieces ps = cs /\
    (forall ps', cut toml_token cs ps' -> Forall plain ps' -> toml_lex src slice = Some (spans 0 ps' ++ [Token TEof (length text) (length text)])).
Proof.
  intros src text slice cs Hs Hsl -> F. destruct (toml_cut_exists cs) as (ps & C). exists ps. split; [assumption|]. split; [now apply cut_text in C|].
  intros ps' C' P. exact (toml_lex_cut src (encode cs) slice cs ps' Hs Hsl (all_reads cs F) C' P).
Qed.
Print Assumptions toml_tokens_partial.

Lemma ascii_enc s : Forall ascii s -> encode s = s.
Proof. intros A. now apply ascii_encode. Qed.
Lemma flat_slice text : valid text -> forall a b s, is_boundary text a = true -> reads text a b s -> flat_text_in text a b = encode s.
Proof. intros V a b s B R. pose proof (reads_boundary text a b s V B R) as B'. destruct R as (_ & L & E). rewrite flat_text_in_spec; try assumption; lia. Qed.

(** A text of ASCII characters, and comments in any script. *)
Theorem toml_tokens_ascii : forall cs, Forall ascii cs ->
  exists ps, cut toml_token cs ps /\ toml_lex (flat_source (encode cs)) (flat_text_in (encode cs)) = Some (spans 0 ps ++ [Token TEof (length (encode cs)) (length (encode cs))]).
Proof.
  intros cs A. assert (F : Forall is_scalar cs). { eapply Forall_impl; [|exact A]. unfold ascii, is_scalar. intros; lia. } assert (V : valid (encode cs)) by now exists cs.
  destruct (toml_tokens_partial (flat_source (encode cs)) (encode cs) (flat_text_in (encode cs)) cs (flat_serves _ V) (flat_slice _ V) eq_refl F) as (ps & C & T & H).
  exists ps. split; [assumption|]. apply H; [assumption|]. apply Forall_forall. intros [k s] I. right. cbn [snd]. apply Forall_forall. intros c Hc. rewrite Forall_forall in A. apply A. rewrite <- T. unfold text_of_pieces. apply in_flat_map. exists (k, s). split; assumption.
Qed.
Print Assumptions toml_tokens_ascii.

Definition case_toml : str := lit "[[a]] # " ++ [195%Z; 169%Z; 10%Z] ++ lit "k-1 = [-2, 3.5, ""x\""y"", 'z', true]".
Example toml_tokens_case : toml_lex (flat_source case_toml) (flat_text_in case_toml) =
  Some [Token TLL 0 2; Token TBareKey 2 3; Token TRR 3 5; Token TWhitespace 5 6; Token TComment 6 10; Token TWhitespace 10 11;
        Token TBareKey 11 14; Token TWhitespace 14 15; Token TEqual 15 16; Token TWhitespace 16 17; Token TLBracket 17 18; Token TInteger 18 20; Token TComma 20 21; Token TWhitespace 21 22;
        Token TFloat 22 25; Token TComma 25 26; Token TWhitespace 26 27; Token TBasic 27 33; Token TComma 33 34; Token TWhitespace 34 35; Token TLiteral 35 38; Token TComma 38 39; Token TWhitespace 39 40;
        Token TBoolean 40 44; Token TRBracket 44 45; Token TEof 45 45].
Proof. vm_compute. reflexivity. Qed.

(** ** Strings *)
(** A basic string ends at the first quote that is not escaped, whatever follows. *)
Theorem toml_string_partial : forall b r, Forall ascii b -> Forall ascii r -> basic_body b ->
  exists toks, toml_lex (flat_source (lit """" ++ b ++ lit """" ++ r)) (flat_text_in (lit """" ++ b ++ lit """" ++ r)) = Some (Token TBasic 0 (S (S (length b))) :: toks).
Proof.
  intros b r Ab Ar B. set (cs := 34%Z :: (b ++ [34%Z]) ++ r). assert (E : lit """" ++ b ++ lit """" ++ r = encode cs).
  { rewrite ascii_enc; [unfold cs; rewrite <- app_assoc; reflexivity|]. unfold cs. constructor; [unfold ascii; lia|]. apply Forall_app. split; [apply Forall_app; split; [assumption|]; constructor; [unfold ascii; lia | constructor] | assumption]. }
  rewrite E. assert (A : Forall ascii cs). { unfold cs. constructor; [unfold ascii; lia|]. apply Forall_app. split; [apply Forall_app; split; [assumption|]; constructor; [unfold ascii; lia | constructor] | assumption]. }
  destruct (toml_cut_exists r) as (ps & C). assert (C' : cut toml_token cs ((Some TBasic, 34%Z :: b ++ [34%Z]) :: ps)). { change cs with ((34%Z :: b ++ [34%Z]) ++ r). constructor; [discriminate | now apply TkBasic | assumption]. }
  assert (F : Forall is_scalar cs). { eapply Forall_impl; [|exact A]. unfold ascii, is_scalar. intros; lia. } assert (V : valid (encode cs)) by now exists cs.
  destruct (toml_tokens_partial (flat_source (encode cs)) (encode cs) (flat_text_in (encode cs)) cs (flat_serves _ V) (flat_slice _ V) eq_refl F) as (_ & _ & _ & H).
  rewrite (H _ C'). 2:{ apply Forall_forall. intros [k s] I. right. cbn [snd]. apply Forall_forall. intros c Hc. rewrite Forall_forall in A. apply A. destruct (cut_text _ _ _ C'). unfold text_of_pieces. apply in_flat_map. exists (k, s). split; assumption. }
  eexists. cbn [spans app]. do 2 f_equal. rewrite ascii_enc by (constructor; [unfold ascii; lia|]; apply Forall_app; split; [assumption|]; constructor; [unfold ascii; lia | constructor]). cbn [length Nat.add]. rewrite app_length. cbn [length]. f_equal. lia.
Qed.
Print Assumptions toml_string_partial.

(** A letter outside ASCII: the step of one byte leaves the character, the string ends before the quote that closes it, and that
    quote opens another string, which swallows the line below. *)
Definition accented : list Z := lit "a=""" ++ [233%Z] ++ lit """" ++ [10%Z] ++ lit "b=1".
Theorem toml_string_refuted : exists b r, basic_body b /\ Forall is_scalar b /\ r = 10%Z :: lit "b=1" /\ accented = lit "a=""" ++ b ++ lit """" ++ r /\
  toml_lex (flat_source (encode accented)) (flat_text_in (encode accented)) = Some [Token TBareKey 0 1; Token TEqual 1 2; Token TBasic 2 5; Token TBasic 5 10; Token TEof 10 10].
Proof.
  exists [233%Z], (10%Z :: lit "b=1"). split; [constructor; [lia | lia | constructor]|]. split; [constructor; [unfold is_scalar; lia | constructor]|]. split; [reflexivity|]. split; [reflexivity | vm_compute; reflexivity].
Qed.
Print Assumptions toml_string_refuted.

(** ** Numbers *)
(** Digits, with a sign and a fraction, are one token. *)
Definition number_text (sign d : list Z) (frac : option (list Z)) : list Z := sign ++ d ++ match frac with None => [] | Some e => 46%Z :: e end.
Theorem toml_number_partial : forall sign d frac r, signed sign -> Forall is_digit d -> d <> [] -> match frac with Some e => Forall is_digit e | None => True end -> Forall ascii r ->
  (forall c, hd_error r = Some c -> ~ is_digit c /\ c <> 46%Z) ->
  let text := number_text sign d frac ++ r in
  exists toks, toml_lex (flat_source text) (flat_text_in text) = Some (Token (if frac then TFloat else TInteger) 0 (length (number_text sign d frac)) :: toks).
Proof.
  intros sign d frac r Sg D N Fr Ar En text. assert (Dg : forall s, Forall is_digit s -> Forall ascii s) by (intros s; apply Forall_impl; unfold is_digit, ascii; intros; lia).
  assert (As : Forall ascii sign) by (destruct Sg as [-> | (c & -> & [-> | ->])]; repeat constructor; unfold ascii; lia).
  assert (An : Forall ascii (number_text sign d frac)). { unfold number_text. apply Forall_app. split; [assumption|]. apply Forall_app. split; [now apply Dg|]. destruct frac; [|constructor]. constructor; [unfold ascii; lia | now apply Dg]. }
  assert (A : Forall ascii text) by (apply Forall_app; now split).
  assert (T : toml_token (Some (if frac then TFloat else TInteger)) (number_text sign d frac) r).
  { unfold number_text. destruct frac as [e|].
    - apply TkFloat; try assumption; [destruct sign, d; try discriminate; congruence|]. intros c Hc. now apply En.
    - rewrite app_nil_r. apply TkInteger; try assumption; [destruct sign, d; try discriminate; congruence|]. intros c Hc [X | X]; destruct (En c Hc); contradiction. }
  destruct (toml_cut_exists r) as (ps & C). assert (C' : cut toml_token text ((Some (if frac then TFloat else TInteger), number_text sign d frac) :: ps)) by (constructor; [unfold number_text; destruct sign, d; try discriminate; congruence | assumption | assumption]).
  assert (F : Forall is_scalar text). { eapply Forall_impl; [|exact A]. unfold ascii, is_scalar. intros; lia. } assert (V : valid (encode text)) by (exists text; split; [exact F | reflexivity]). assert (Et : encode text = text) by now apply ascii_enc.
  destruct (toml_tokens_partial (flat_source (encode text)) (encode text) (flat_text_in (encode text)) text (flat_serves _ V) (flat_slice _ V) eq_refl F) as (_ & _ & _ & H).
  specialize (H _ C'). rewrite Et in H. rewrite H. 2:{ apply Forall_forall. intros [k s] I. right. cbn [snd]. apply Forall_forall. intros c Hc. rewrite Forall_forall in A. apply A. destruct (cut_text _ _ _ C'). unfold text_of_pieces. apply in_flat_map. exists (k, s). split; assumption. }
  eexists. cbn [spans app]. rewrite (ascii_enc _ An). reflexivity.
Qed.
Print Assumptions toml_number_partial.

Example toml_number_case : toml_lex (flat_source (lit "-12.50,")) (flat_text_in (lit "-12.50,")) = Some [Token TFloat 0 6; Token TComma 6 7; Token TEof 7 7].
Proof. vm_compute. reflexivity. Qed.

(** Separators, exponents and the other numbers of TOML are cut: a number, then a bare key.  A sign alone is a number. *)
Theorem toml_number_refuted :
  toml_lex (flat_source (lit "1_000")) (flat_text_in (lit "1_000")) = Some [Token TInteger 0 1; Token TBareKey 1 5; Token TEof 5 5] /\
  toml_lex (flat_source (lit "1e5")) (flat_text_in (lit "1e5")) = Some [Token TInteger 0 1; Token TBareKey 1 3; Token TEof 3 3] /\
  toml_lex (flat_source (lit "0xff")) (flat_text_in (lit "0xff")) = Some [Token TInteger 0 1; Token TBareKey 1 4; Token TEof 4 4] /\
  toml_lex (flat_source (lit "-")) (flat_text_in (lit "-")) = Some [Token TInteger 0 1; Token TEof 1 1].
Proof. vm_compute. now repeat split. Qed.
Print Assumptions toml_number_refuted.

(** ** Any text *)
(** Lexing ends for every string of bytes; tokens are not empty, in order and without overlap, and the last one ends the list. *)
Theorem toml_lex_total_partial : forall text slice, exists e toks, toml_lex (flat_source text) slice = Some (toks ++ [Token TEof e e]) /\
  e <= length text /\ in_order 0 toks e /\ Forall (fun t => tk_kind t <> TEof /\ tk_start t < tk_end t) toks.
Proof. exact toml_lex_flat. Qed.
Print Assumptions toml_lex_total_partial.

(** The end need not be the end of the text, and tokens can start inside characters and appear twice: lexing [é=1] finds the equal
    sign twice, first one byte before it. *)
Theorem toml_end_refuted : exists cs, Forall is_scalar cs /\ toml_lex (flat_source (encode cs)) (flat_text_in (encode cs)) = Some [Token TEof 1 1] /\ length (encode cs) = 2.
Proof. exists [233%Z]. split; [constructor; [unfold is_scalar; lia | constructor]|]. split; [vm_compute; reflexivity | reflexivity]. Qed.
Print Assumptions toml_end_refuted.

Theorem toml_stray_refuted : exists cs, Forall is_scalar cs /\ cs = 233%Z :: lit "=1" /\ is_boundary (encode cs) 1 = false /\
  toml_lex (flat_source (encode cs)) (flat_text_in (encode cs)) = Some [Token TEqual 1 2; Token TEqual 2 3; Token TInteger 3 4; Token TEof 4 4].
Proof. exists (233%Z :: lit "=1"). split; [repeat constructor; unfold is_scalar; cbn; lia|]. split; [reflexivity|]. split; [reflexivity | vm_compute; reflexivity]. Qed.
Print Assumptions toml_stray_refuted.

(** ** The tree *)
(** The tokens from the first one that is neither white space nor a comment. *)
Fixpoint from_content (ts : list token) : list token :=
  match ts with
  | t :: r => if (tk_kind t =? TWhitespace) || (tk_kind t =? TComment) then from_content r else ts
  | [] => []
  end.
Lemma from_content_trivia ts : no_trivia toml_ignored ts = from_content ts.
Proof. induction ts as [| t r IH]; [reflexivity|]. cbn [no_trivia from_content]. rewrite <- IH. reflexivity. Qed.

(** Every text is accepted without a diagnostic; the tree is the root with the tokens below it, from the first that is not trivia. *)
Theorem toml_parse_flat_partial : forall text, (Z.of_nat (length text) < 2 ^ 32)%Z ->
  exists toks, toml_lex (flat_source text) (flat_text_in text) = Some toks /\
    toml_parse text = Some (gnode TRoot (map (fun t => GLeaf (tk_kind t) (tk_end t - tk_start t) None) (from_content toks)), []).
Proof.
  intros text L. destruct (toml_lex_flat text (flat_text_in text)) as (e & toks & E & B & O & _). exists (toks ++ [Token TEof e e]). split; [assumption|]. unfold toml_parse. rewrite E, parse_tokens_tree; [now rewrite from_content_trivia|].
  rewrite toklen_app, toklen_cons. cbn [tk_end tk_start]. change (toklen []) with 0. apply in_order_len in O. lia.
Qed.
Print Assumptions toml_parse_flat_partial.

Example toml_parse_case : toml_parse (lit "a = 1") =
  Some (gnode TRoot [leaf TBareKey (lit "a"); leaf TWhitespace (lit " "); leaf TEqual (lit "="); leaf TWhitespace (lit " "); leaf TInteger (lit "1"); leaf TEof []], []).
Proof. vm_compute. reflexivity. Qed.

(** A text that no TOML reader accepts, without a diagnostic. *)
Theorem toml_malformed_refuted : exists root, toml_parse (lit "= ]] [a ""b") = Some (root, []).
Proof. eexists. vm_compute. reflexivity. Qed.
Print Assumptions toml_malformed_refuted.

(** A comment at the start is not in the tree, whose length is not that of the text. *)
Theorem toml_leading_refuted : exists text, text = lit "#c" ++ [10%Z] ++ lit "a=1" /\
  toml_parse text = Some (gnode TRoot [leaf TBareKey (lit "a"); leaf TEqual (lit "="); leaf TInteger (lit "1"); leaf TEof []], []).
Proof. eexists. split; [reflexivity | vm_compute; reflexivity]. Qed.
Print Assumptions toml_leading_refuted.
