(** Theorems about the LLVM IR lexer and parser. *)
From Verif Require Import Base Utf8 Utf8Facts ScanSpec CursorModel CursorSpec CursorProofs RopeModel RopeProofs LexModel LexSpec TreeModel ParserSpec IniModel.
From Verif Require Import JsonLangSpec LangModel LangSpec LangLexProofs LangParseProofs LlModel LlSpec LlLexProofs LlProofs.

(** ** C214: the tokens of a text *)
(** Whatever holds the text: its tokens are those of its division into blanks, line ends, comments, variables, marks, numbers, strings,
    words and stray characters, and one of no length at the end. *)
Theorem llvm_lex : forall alpha alnum src text cs ps, letters alpha -> serves src text -> reads text 0 (length text) cs -> cut (ll_piece alpha alnum) cs ps ->
  ll_lex alpha alnum src = Some (spans 0 ps ++ [Token LvError (length text) (length text)]).
Proof. intros alpha alnum src text cs ps Al Hs R C. exact (ll_lex_cut alpha alnum src text Hs Al cs ps R C). Qed.
Print Assumptions llvm_lex.
(** A text has one such division, if only ASCII letters are in it; *)
Theorem llvm_lex_division : forall alpha alnum cs, Forall (fun c => alpha c = true -> (c < 128)%Z) cs -> exists ps, cut (ll_piece alpha alnum) cs ps.
Proof.
  intros alpha alnum cs F. apply (ll_cut_exists alpha alnum (length cs)); [lia|]. eapply Forall_impl; [|exact F]. intros c H [A | [-> | ->]]; [now apply H | lia | lia].
Qed.
Print Assumptions llvm_lex_division.
(** and never two. *)
Theorem llvm_lex_unique : forall alpha alnum cs ps ps', letters alpha -> cut (ll_piece alpha alnum) cs ps -> cut (ll_piece alpha alnum) cs ps' -> ps = ps'.
Proof.
  intros alpha alnum cs ps ps' Al C C'. apply (cut_unique (ll_piece alpha alnum) cs ps); [|assumption | assumption]. intros k s r k' s' r' E _ _. now apply ll_pieces_unique.
Qed.
Print Assumptions llvm_lex_unique.

Definition ascii_alnum_c (c : Z) : bool := ascii_alpha_c c || ascii_digit_c c.
Lemma ascii_letters : letters ascii_alpha_c.
Proof. intros c H _. unfold ascii_alpha_c in H. apply orb_true_iff in H. rewrite !andb_true_iff, !Z.leb_le in H. lia. Qed.
Example llvm_lex_case : letters ascii_alpha_c /\ ll_lex ascii_alpha_c ascii_alnum_c (flat_source (lit "%a.1 = add -1.5 ; c")) =
  Some [Token LvLocalVar 0 4; Token LvWhitespace 4 5; Token LvEqual 5 6; Token LvWhitespace 6 7; Token LvKeyword 7 10; Token LvWhitespace 10 11; Token LvNumber 11 15; Token LvWhitespace 15 16; Token LvComment 16 19; Token LvError 19 19].
Proof. split; [exact ascii_letters | vm_compute; reflexivity]. Qed.

(** A word that begins with a letter of two bytes: the token has only the first of them, and the other is in no token. *)
Definition with_e (c : Z) : bool := ascii_alpha_c c || (c =? 233)%Z.
Theorem llvm_lex_wide_refuted : exists alpha alnum cs toks, letters alpha /\ Forall is_scalar cs /\ ll_lex alpha alnum (flat_source (encode cs)) = Some toks /\
  In (Token LvKeyword 0 1) toks /\ is_boundary (encode cs) 1 = false /\ list_sum (map (fun t => tk_end t - tk_start t) toks) < length (encode cs).
Proof.
  exists with_e, with_e, [233%Z]. eexists. split.
  - intros c H L. unfold with_e in H. apply orb_true_iff in H. destruct H as [H | H]; [now apply ascii_letters | apply Z.eqb_eq in H; lia].
  - split; [repeat constructor; unfold is_scalar; lia|]. split; [vm_compute; reflexivity|]. split; [now left|]. split; [reflexivity | cbn; lia].
Qed.
Print Assumptions llvm_lex_wide_refuted.

(** ** C215: the tree *)
(** The parser ends for every text: with a tree and no diagnostic or with one diagnostic and no tree.  The tree has the pieces of the text
    in their order, except for the blanks and comments at its beginning and for pieces that begin no item. *)
Theorem llvm_tree_leaves : forall alpha alnum cs ps, letters alpha -> Forall is_scalar cs -> (Z.of_nat (length (encode cs)) < 2 ^ 32)%Z -> cut (ll_piece alpha alnum) cs ps ->
  (exists root w qs kept, ll_parse alpha alnum (encode cs) = Some (Some root, []) /\ ps = w ++ qs /\ Forall (fun p => In (fst p) [Some LvWhitespace; Some LvComment]) w /\
     thins (fun p => exists k, fst p = Some k /\ stray k (snd p)) (qs ++ [(Some LvError, [])]) kept /\ yield root = flat_map piece_yield kept) \/
  (exists e, ll_parse alpha alnum (encode cs) = Some (None, [e])).
Proof.
  intros alpha alnum cs ps Al Sc L C. unfold ll_parse. rewrite (ll_lex_cut alpha alnum (flat_source (encode cs)) (encode cs) (flat_serves (encode cs) (ex_intro _ cs (conj Sc eq_refl))) Al cs ps (all_reads cs Sc) C).
  pose proof (cut_text _ _ _ C) as Tx. assert (Some_kind : Forall (fun p : piece => fst p <> None) ps). { clear - C. induction C as [| k s r ps _ P _ IH]; constructor; [|assumption]. cbn. now destruct P. }
  destruct (root_leaves (encode cs) (spans 0 ps ++ [Token LvError (length (encode cs)) (length (encode cs))]) (spans_fit cs ps _ _ Tx L)) as [(root & kept & E & T & Y) | (e & E)]; [left | right; now exists e].
  destruct (no_trivia_pieces (encode cs) ps [] Some_kind) as (w & qs & -> & Fw & _ & En). cbn [encode length] in En. rewrite En in T. cbn [app] in T.
  apply Forall_app in Some_kind. destruct Some_kind as [Sw Sq]. destruct (thins_pieces (encode cs) cs eq_refl Sc qs (text_of_pieces w) kept) as (keep & Tk & Yk); [|exact Sq | exact T|].
  { rewrite <- Tx. unfold text_of_pieces. now rewrite flat_map_app. }
  exists root, w, qs, keep. split; [exact E|]. split; [reflexivity|]. split; [|split; [|now rewrite Y]].
  - clear - Fw Sw. induction Fw as [| [k s] w K _ IH]; constructor; [|apply IH; now apply Forall_cons_iff in Sw]. apply Forall_cons_iff in Sw. destruct Sw as [Sw _]. destruct k as [k|]; [|now destruct Sw]. cbn [kind_of fst] in *. unfold ll_ignored in K. apply orb_true_iff in K. destruct K as [K | K]; apply Nat.eqb_eq in K; subst k; cbn; auto.
  - clear - Tk Sq. assert (S' : Forall (fun p : piece => fst p <> None) (qs ++ [end_piece])) by (apply Forall_app; split; [exact Sq | repeat constructor; discriminate]). 
    assert (G : forall l k, thins loose l k -> Forall (fun p : piece => fst p <> None) l -> thins (fun p : piece => exists k, fst p = Some k /\ stray k (snd p)) l k).
    { induction 1 as [| p l k T IH | p l k P T IH]; intros F; [constructor | apply Forall_cons_iff in F; constructor; now apply IH |]. apply Forall_cons_iff in F. destruct F as [S1 S2]. apply ThDrop; [|now apply IH]. destruct p as [[x|] s]; [|now destruct S1]. now exists x. }
    exact (G _ _ Tk S').
Qed.
Print Assumptions llvm_tree_leaves.
Example llvm_tree_case : let text := lit "; c" ++ [10%Z] ++ lit "target @x = global i32 5" in exists root, ll_parse ascii_alpha_c ascii_alnum_c text = Some (Some root, []) /\
  yield root = [(LvNewline, 1); (LvWhitespace, 1); (LvGlobalVar, 2); (LvWhitespace, 1); (LvEqual, 1); (LvWhitespace, 1); (LvKeyword, 6); (LvWhitespace, 1); (LvKeyword, 3); (LvWhitespace, 1); (LvNumber, 1); (LvError, 0)].
Proof. eexists. split; vm_compute; reflexivity. Qed.

(** The declarations of LLVM IR are not read: a word of the text is in no leaf, and nothing is reported. *)
Theorem llvm_tree_leaves_refuted : exists alpha alnum cs root, letters alpha /\ Forall is_scalar cs /\ ll_parse alpha alnum (encode cs) = Some (Some root, []) /\
  list_sum (map snd (yield root)) < length (encode cs).
Proof.
  exists ascii_alpha_c, ascii_alnum_c, (lit "attributes #0 = { nounwind }"). eexists. split; [exact ascii_letters|]. split; [repeat constructor; unfold is_scalar; lia|]. split; [vm_compute; reflexivity | vm_compute; lia].
Qed.
Print Assumptions llvm_tree_leaves_refuted.
(** A function that is only declared stops the parser: no tree for the whole text. *)
Theorem llvm_declare_refuted : exists alpha alnum cs e, letters alpha /\ Forall is_scalar cs /\ cs = lit "declare i32 @f(i32)" /\ ll_parse alpha alnum (encode cs) = Some (None, [e]).
Proof.
  exists ascii_alpha_c, ascii_alnum_c, (lit "declare i32 @f(i32)"). eexists. split; [exact ascii_letters|]. split; [repeat constructor; unfold is_scalar; lia|]. split; [reflexivity | vm_compute; reflexivity].
Qed.
Print Assumptions llvm_declare_refuted.
