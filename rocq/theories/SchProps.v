(** Theorems about the Scheme lexer and parser. *)
From Verif Require Import Base Utf8 Utf8Facts ScanSpec CursorModel CursorSpec CursorProofs RopeModel RopeSpec RopeProofs LexModel LexSpec TreeModel IniModel.
From Verif Require Import JsonLangSpec LangSpec LangLexProofs LangParseProofs BareModel BareSpec BareProofs BareProps SchModel SchSpec SchProofs.

(** ** C205: the tokens of a text *)
(** The tokens of a text in one piece are those of its division into white space, comments (one in another too), string literals,
    numbers, words, brackets and marks; each character is in one of them. *)
Theorem scheme_lex : forall alpha cs, letters alpha -> Forall is_scalar cs -> exists ps, cut (sch_piece alpha whole) cs ps /\
  sch_lex alpha (flat_source (encode cs)) (flat_text_in (encode cs)) = Some (spans 0 ps ++ [Token HEof (length (encode cs)) (length (encode cs))]).
Proof. exact sch_lex_flat. Qed.
Print Assumptions scheme_lex.
(** There is one such division. *)
Theorem scheme_lex_unique : forall alpha cs ps ps', letters alpha -> cut (sch_piece alpha whole) cs ps -> cut (sch_piece alpha whole) cs ps' -> ps = ps'.
Proof.
  intros alpha cs ps ps' Al C C'. apply (cut_unique (sch_piece alpha whole) cs ps); [|assumption | assumption]. intros k s r k' s' r'. now apply sch_pieces_unique.
Qed.
Print Assumptions scheme_lex_unique.
Lemma ascii_letters : letters ascii_alpha_c.
Proof.
  intros c H. unfold ascii_alpha_c in H. apply orb_true_iff in H. rewrite !andb_true_iff, !Z.leb_le in H. split; [|lia]. unfold sspace. rewrite not_white by lia. discriminate.
Qed.
Example scheme_lex_case : sch_lex ascii_alpha_c (flat_source (lit "#t -1.5x #|a#|b|#|# ")) (flat_text_in (lit "#t -1.5x #|a#|b|#|# ")) =
  Some [Token HHash 0 1; Token HIdentifier 1 2; Token HWhitespace 2 3; Token HNumber 3 7; Token HIdentifier 7 8; Token HWhitespace 8 9; Token HComment 9 19; Token HWhitespace 19 20; Token HEof 20 20].
Proof. vm_compute. reflexivity. Qed.

(** The truth values are not keywords, although the table of keywords has them: a mark and a word. *)
Theorem scheme_truth_words : forall v, In v (lit "tf") -> In (encode [35%Z; v]) sch_words /\
  sch_lex ascii_alpha_c (flat_source (encode [35%Z; v])) (flat_text_in (encode [35%Z; v])) = Some [Token HHash 0 1; Token HIdentifier 1 2; Token HEof 2 2].
Proof. intros v I. cbn in I. destruct I as [<- | [<- | []]]; (split; [cbn; tauto | vm_compute; reflexivity]). Qed.
Print Assumptions scheme_truth_words.

(** No text gives a [Newline] or a [Dot]: line ends are white space, and a point begins a word. *)
Theorem scheme_kinds_absent : forall alpha cs toks, letters alpha -> Forall is_scalar cs -> sch_lex alpha (flat_source (encode cs)) (flat_text_in (encode cs)) = Some toks ->
  Forall (fun t => tk_kind t <> HNewline /\ tk_kind t <> HDot) toks.
Proof.
  intros alpha cs toks Al F E. destruct (sch_lex_flat alpha cs Al F) as (ps & C & E'). rewrite E' in E. injection E as <-. apply Forall_app. split; [|repeat constructor; discriminate].
  clear E' F. generalize 0. induction C as [| k s r ps _ P _ IH]; intros o; cbn [spans]; [constructor|]. assert (K : match k with Some k => k <> HNewline /\ k <> HDot | None => True end).
  { destruct P as [? ? _ | ? ? _ | ? ? _ | ? _ | ? ? _ | ? _ | ? _ | ? ? ? _ _ _ | c s q r k _ _ _ _ K | c k r M _ | ? ? _ _ _ _ _ _]; try (split; discriminate).
    - destruct K as [[-> _] | [-> _]]; split; discriminate.
    - unfold marks in M. cbn [In] in M. repeat (destruct M as [M | M]; [apply (f_equal snd) in M; cbn [snd] in M; subst k; split; discriminate|]). contradiction. }
  destruct k as [k|]; cbn [app]; [constructor; [exact K | apply IH] | apply IH].
Qed.
Print Assumptions scheme_kinds_absent.

(** ** C206: the same tokens whatever holds the text *)
(** Whatever holds the text: the tokens are those of a division in which a word or a number may be cut short. *)
Theorem scheme_lex_source_partial : forall alpha src text slice cs, letters alpha -> serves src text -> (forall a b s, is_boundary text a = true -> reads text a b s -> slice a b = encode s) ->
  reads text 0 (length text) cs ->
  exists ps, cut (sch_piece alpha some_part) cs ps /\ sch_lex alpha src slice = Some (spans 0 ps ++ [Token HEof (length text) (length text)]).
Proof. exact sch_lex_any. Qed.
Print Assumptions scheme_lex_source_partial.

(** A rope after one edit and the plain text of the same letters have different tokens: words end where the rope is cut. *)
Definition rope_text (r : chunked) (a b : nat) : str := match text_in_chunks r a b with Some s => s | None => [] end.
Theorem scheme_lex_source_refuted : exists r0 r toks toks', rope_new 4096 (lit "(lamda)") = Some r0 /\ rope_replace 4096 r0 4 4 (lit "b") = Some r /\ concat (ck_chunks r) = lit "(lambda)" /\
  sch_lex ascii_alpha_c (chunked_source r) (rope_text r) = Some toks /\ sch_lex ascii_alpha_c (flat_source (lit "(lambda)")) (flat_text_in (lit "(lambda)")) = Some toks' /\
  In (Token HKeyword 1 7) toks' /\ Forall (fun t => tk_kind t <> HKeyword) toks /\ length toks = 6 /\ length toks' = 4.
Proof.
  eexists _, _, _, _. split; [vm_compute; reflexivity|]. split; [vm_compute; reflexivity|]. split; [reflexivity|]. split; [vm_compute; reflexivity|]. split; [vm_compute; reflexivity|].
  split; [vm_compute; tauto|]. split; [repeat constructor; discriminate|]. split; reflexivity.
Qed.
Print Assumptions scheme_lex_source_refuted.

(** ** C207: the tree *)
(** The parser gives a tree and no diagnostic for every text, and of the words, numbers, strings and marks nothing is in the tree: only
    white space and comments after the first of them. *)
Lemma ignored_small : forall k, sch_ignored k = true -> In k [HWhitespace; HNewline; HComment; HLineComment].
Proof. intros k H. unfold sch_ignored in H. apply existsb_exists in H. destruct H as (x & I & E). apply Nat.eqb_eq in E. now subst x. Qed.
Lemma spans_len ps : forall o, Forall (fun p : piece => fst p <> None) ps -> taken (spans o ps) = length (encode (text_of_pieces ps)).
Proof.
  induction ps as [| [k s] ps IH]; intros o F; [reflexivity|]. unfold text_of_pieces in *; cbn [spans flat_map fst snd] in *. apply Forall_cons_iff in F. destruct F as [F1 F2]. destruct k as [k|]; [|contradiction]. cbn [app]. unfold taken in *. cbn [map list_sum fold_right tk_start tk_end]. rewrite encode_app, app_length, <- (IH (o + length (encode s)) F2). cbn [list_sum fold_right]. unfold list_sum. lia.
Qed.
Theorem scheme_tree_trivia : forall alpha cs, letters alpha -> Forall is_scalar cs -> (Z.of_nat (length (encode cs)) < 2 ^ 32)%Z ->
  exists w gs, sch_parse alpha (encode cs) = Some (GNode HSourceFile w gs, []) /\
    Forall (fun g => exists k n, g = GLeaf k n None /\ In k [HWhitespace; HNewline; HComment; HLineComment]) gs.
Proof.
  intros alpha cs Al F L. unfold sch_parse. destruct (sch_lex_flat alpha cs Al F) as (ps & C & ->). set (toks := spans 0 ps ++ [Token HEof (length (encode cs)) (length (encode cs))]).
  assert (T : (Z.of_nat (taken toks) < 2 ^ 32)%Z).
  { assert (E : taken toks = length (encode cs)).
    { unfold toks, taken. rewrite map_app, list_sum_app. change (list_sum (map (fun t => tk_end t - tk_start t) (spans 0 ps))) with (taken (spans 0 ps)). rewrite spans_len.
      - cbn. rewrite Nat.sub_diag, !Nat.add_0_r. pose proof (cut_text _ _ _ C) as Et. now rewrite Et.
      - clear - C. induction C as [| k s r ps _ P _ IH]; constructor; [|assumption]. cbn. now destruct P. }
    now rewrite E. }
  rewrite (advancing_tree sch_ignored toks T). unfold gnode. eexists _, _. split; [reflexivity|]. apply Forall_forall. intros g I. apply in_map_iff in I. destruct I as (t & <- & I). apply filter_In in I. destruct I as [_ I]. eexists _, _. split; [reflexivity|]. now apply ignored_small.
Qed.
Print Assumptions scheme_tree_trivia.
(** So a text of words has an empty tree. *)
Theorem scheme_tree_refuted : exists cs, Forall is_scalar cs /\ cs <> [] /\ sch_parse ascii_alpha_c (encode cs) = Some (GNode HSourceFile 0 [], []).
Proof. exists (lit "(car'(1))"). split; [repeat constructor; unfold is_scalar; lia|]. split; [discriminate | vm_compute; reflexivity]. Qed.
Print Assumptions scheme_tree_refuted.
Example scheme_tree_case : sch_parse ascii_alpha_c (lit "(define (f x) ; c") =
  Some (GNode HSourceFile 6 [GLeaf HWhitespace 1 None; GLeaf HWhitespace 1 None; GLeaf HWhitespace 1 None; GLeaf HLineComment 3 None], []).
Proof. vm_compute. reflexivity. Qed.
