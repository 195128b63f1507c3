(** Properties of the INI lexer and parser. *)
From Verif Require Import Base Utf8 CursorModel LexModel TreeModel ParserModel JsonLangSpec IniModel IniSpec IniProofs.

(** C130.  Parsing INI stops without a panic, whatever the text; but it never gives a tree: the end-of-stream
    token counts as input left, and a key is expected there. *)
Theorem ini_parse_total_partial text : (Z.of_nat (length text) < 2 ^ 32)%Z -> exists r errs, ini_parse text = Some (r, errs).
Proof. intros L. destruct (ini_fails text L) as (errs & E & _). now exists Failed, errs. Qed.
Print Assumptions ini_parse_total_partial.

Theorem ini_rejects_all text : (Z.of_nat (length text) < 2 ^ 32)%Z -> exists errs, ini_parse text = Some (Failed, errs) /\ errs <> [].
Proof. apply ini_fails. Qed.
Print Assumptions ini_rejects_all.

Theorem ini_accepts_refuted : exists es, Forall plain es /\ es <> [] /\ exists errs, ini_parse (ini_file es) = Some (Failed, errs) /\ errs <> [].
Proof.
  exists [Section_ (lit "server"); Pair_ (lit "port") (lit "80")]. split.
  - repeat (apply Forall_cons; [|]); cbn; repeat split; try discriminate; repeat (apply Forall_cons; [cbn; lia|]); apply Forall_nil.
  - split; [discriminate|]. apply ini_fails. cbn. lia.
Qed.
Print Assumptions ini_accepts_refuted.

(** The diagnostic of that file, and of the empty one: an identifier or a string is expected, at the index of the
    end-of-stream token among the tokens (given as an offset). *)
Example ini_file_diagnostic : ini_parse (ini_file [Section_ (lit "server"); Pair_ (lit "port") (lit "80")]) = Some (Failed, [(1, 8)]).
Proof. vm_compute. reflexivity. Qed.
Example ini_empty_diagnostic : ini_parse [] = Some (Failed, [(1, 0)]).
Proof. vm_compute. reflexivity. Qed.

(** The parser state behind it: at the end-of-stream token [not_at_end] is still true. *)
Theorem not_at_end_refuted : exists toks s, ini_lex [] = Some toks /\ s = ps_new ini_ignored toks 0 [] /\
  current_offset s = ps_srclen s /\ ps_not_at_end s = true.
Proof. eexists _, _. split; [vm_compute; reflexivity|]. split; [reflexivity|]. now split. Qed.
Print Assumptions not_at_end_refuted.

(** C131.  Lexing INI stops without a panic, whatever the bytes; the tokens are in order, none is empty, and the
    end-of-stream token is the last and only one of its kind. *)
Theorem ini_tokens_partial text : exists toks, ini_lex text = Some (toks ++ [Token IEof (length text) (length text)]) /\
  in_order 0 toks (length text) /\ Forall (fun t => tk_kind t <> IEof /\ tk_start t < tk_end t) toks.
Proof. apply ini_lex_total. Qed.
Print Assumptions ini_tokens_partial.

Example ini_tokens_example : ini_lex (lit "[a] x=-1.5 ;c") = Some
  [Token ILeftBracket 0 1; Token IIdentifier 1 2; Token IRightBracket 2 3; Token IWhitespace 3 4; Token IIdentifier 4 5; Token IEqual 5 6; Token IFloat 6 10;
   Token IWhitespace 10 11; Token IComment 11 13; Token IEof 13 13].
Proof. vm_compute. reflexivity. Qed.

Example ini_words : ini_lex (lit "_a-1.b TRUE") = Some
  [Token IIdentifier 0 4; Token IDot 4 5; Token IIdentifier 5 6; Token IWhitespace 6 7; Token IBoolean 7 11; Token IEof 11 11].
Proof. vm_compute. reflexivity. Qed.

(** But the tokens need not cover the text: a character no rule takes is left out without a token. *)
Theorem ini_cover_refuted : exists text i toks, ini_lex text = Some toks /\ i < length text /\ nth_error text i = Some 58%Z /\
  ~ exists t, In t toks /\ tk_start t <= i < tk_end t.
Proof.
  exists (lit "a:1"), 1. eexists. split; [vm_compute; reflexivity|]. split; [cbn; lia|]. split; [reflexivity|].
  intros (t & [<- | [<- | [<- | []]]] & H); cbn in H; lia.
Qed.
Print Assumptions ini_cover_refuted.

(** And a string may end inside a character: an escaped character is taken to be one byte long. *)
Theorem ini_boundary_refuted : exists cs toks t, Forall is_scalar cs /\ ini_lex (encode cs) = Some toks /\ In t toks /\ is_boundary (encode cs) (tk_end t) = false.
Proof.
  exists [34; 92; 233]%Z. eexists _, (Token IString 0 3). split; [|split; [vm_compute; reflexivity|]].
  - repeat (apply Forall_cons; [unfold is_scalar; lia|]). apply Forall_nil.
  - split; [now left | reflexivity].
Qed.
Print Assumptions ini_boundary_refuted.
