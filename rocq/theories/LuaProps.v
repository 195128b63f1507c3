(** Theorems about the Lua lexer and parser. *)
From Verif Require Import Base Utf8 Utf8Facts LexModel LexSpec TreeModel TreeSpec ParserModel ParserSpec JsonLangSpec LangModel LangSpec LangLexProofs LuaModel LuaSpec.
From Verif Require LuaLexProofs LuaProofs.

(** ** Tokens *)
(** The tokens of a text are its pieces and the end of the file.  Missing: texts with a minus or a square bracket directly
    before a character that is not ASCII, see [lua_tiling_refuted]. *)
Theorem lua_tokens_partial cs : Forall is_scalar cs -> mild cs ->
  exists ps, cut lua_piece cs ps /\ lua_lex (encode cs) = Some (spans 0 ps ++ [Token UEof (length (encode cs)) (length (encode cs))]) /\
    forall ps', cut lua_piece cs ps' -> ps' = ps.
Proof.
  intros Sc Md. destruct (LuaLexProofs.lua_lex_cut cs Sc Md) as (ps & C & E). exists ps. split; [exact C|]. split; [exact E|]. intros ps' C'. symmetry. exact (cut_unique lua_piece cs ps LuaLexProofs.lua_pieces_unique C ps' C').
Qed.
Print Assumptions lua_tokens_partial.

Definition kinds_of (t : str) : option (list nat) := option_map (map tk_kind) (lua_lex t).
(** A name that begins like a keyword, a number with every part, a string with an escaped quote, three points *)
Example lua_tokens_run :
  kinds_of (lit "local ends=1.5e+3 ..'a\'b'") = Some [ULocal; UWhitespace; UIdentifier; UEq; UNumber; UWhitespace; UDotDot; UString; UEof] /\
  kinds_of (lit "f(...)//x ~= ""open") = Some [UIdentifier; ULeftParen; UDotDotDot; URightParen; USlashSlash; UIdentifier; UWhitespace; UTildeEq; UWhitespace; UString; UEof] /\
  mild (lit "f(...)//x ~= y") /\ mild (lit "a[1] - b").
Proof.
  split; [vm_compute; reflexivity|]. split; [vm_compute; reflexivity|].
  split; intros a c d b E _; apply (f_equal (Forall (fun x => (x < 128)%Z))) in E; match type of E with ?P = _ => assert (H : P) by (vm_compute; repeat constructor) end; rewrite E in H; apply Forall_app in H; destruct H as [_ H]; inversion H as [| ? ? _ H2]; now inversion H2.
Qed.

(** The tokens should have every byte of the text: after a minus one byte is skipped, whatever it belongs to. *)
Theorem lua_tiling_refuted : exists cs toks, Forall is_scalar cs /\ lua_lex (encode cs) = Some toks /\
  exists i, i < length (encode cs) /\ forall t, In t toks -> ~ (tk_start t <= i < tk_end t).
Proof.
  exists [45; 233]%Z. eexists. split; [repeat (apply Forall_cons; [unfold is_scalar; cbn; lia|]); apply Forall_nil|]. split; [vm_compute; reflexivity|]. exists 2. split; [vm_compute; lia|].
  intros t I. cbn in I. repeat (destruct I as [<- | I]; [cbn; lia|]). destruct I.
Qed.
Print Assumptions lua_tiling_refuted.

(** A minus sign and an opening bracket should be tokens of their own, and hexadecimal numbers one token: there never is
    such a token, a minus begins a comment, a bracket begins a string, and [0x] is not one token. *)
Theorem lua_minus_refuted : (forall cs ps, cut lua_piece cs ps -> Forall (fun p => fst p <> Some UMinus /\ fst p <> Some ULeftBracket) ps) /\
  kinds_of (lit "a-b+c") = Some [UIdentifier; UComment; UEof] /\ kinds_of (lit "t[i]=1") = Some [UIdentifier; UString; UNumber; UEof] /\ kinds_of (lit "0xFF") = Some [UNumber; UIdentifier; UEof].
Proof.
  split; [|repeat split; vm_compute; reflexivity]. induction 1 as [| k s r ps _ P _ IH]; constructor; [|exact IH]. cbn [fst]. destruct P as [| | | | | | | | | | | c s r k _ _ K | s k r I _ |]; split; try discriminate; intros E; injection E as ->.
  - destruct K as [K | [_ K]]; [|discriminate]. cbn in K. repeat (destruct K as [K | K]; [discriminate|]). exact K.
  - destruct K as [K | [_ K]]; [|discriminate]. cbn in K. repeat (destruct K as [K | K]; [discriminate|]). exact K.
  - cbn in I. repeat (destruct I as [I | I]; [discriminate|]). exact I.
  - cbn in I. repeat (destruct I as [I | I]; [discriminate|]). exact I.
Qed.
Print Assumptions lua_minus_refuted.

(** ** Trees *)
(** The tree of a parse that ends has the pieces of the text in their order and the end of the file, except for the blanks
    and comments before the first of the others.  Missing: texts that are not mild. *)
Theorem lua_tree_leaves_partial cs ps fuel root errs : Forall is_scalar cs -> mild cs -> (Z.of_nat (length (encode cs)) < 2 ^ 32)%Z -> cut lua_piece cs ps ->
  lua_tree fuel (encode cs) = Some (root, errs) ->
  exists w qs, ps = w ++ qs /\ Forall trivia w /\ settled qs /\ yield root = flat_map piece_yield qs ++ [(UEof, 0)].
Proof.
  intros Sc Md L C E. destruct (LuaProofs.tree_whole cs ps Sc Md L C fuel root errs E) as (w & qs & Eps & F & H & Y & _). exists w, qs. split; [exact Eps|]. split; [|split; [|exact Y]].
  - eapply Forall_impl; [|exact F]. intros p. apply LuaProofs.ign_trivia.
  - intros p Hp T. apply LuaProofs.ign_trivia in T. rewrite (H p Hp) in T. discriminate.
Qed.
Print Assumptions lua_tree_leaves_partial.

Example lua_tree_run : exists root errs, lua_tree 40 (lit " x = f(1, y) ; local z") = Some (root, errs) /\ errs = [(0, 22)] /\
  yield root = [(UIdentifier, 1); (UWhitespace, 1); (UEq, 1); (UWhitespace, 1); (UIdentifier, 1); (ULeftParen, 1); (UNumber, 1); (UComma, 1); (UWhitespace, 1); (UIdentifier, 1); (URightParen, 1); (UWhitespace, 1); (USemicolon, 1); (UWhitespace, 1); (ULocal, 5); (UWhitespace, 1); (UIdentifier, 1); (UEof, 0)].
Proof. do 2 eexists. split; [vm_compute; reflexivity|]. split; vm_compute; reflexivity. Qed.

(** The tree should have every byte: a blank before the first token is in no leaf. *)
Theorem lua_tree_leaves_refuted : exists cs ps fuel root errs, Forall is_scalar cs /\ mild cs /\ cut lua_piece cs ps /\ lua_tree fuel (encode cs) = Some (root, errs) /\
  yield root <> flat_map piece_yield ps ++ [(UEof, 0)] /\ list_sum (map snd (yield root)) < length (encode cs).
Proof.
  exists [32%Z], [(Some UWhitespace, [32%Z])]. exists 10. eexists _, _. split; [constructor; [unfold is_scalar; lia | constructor]|]. split; [intros a c d b E _; destruct a as [|? [|]]; discriminate E|].
  split; [apply (CutPiece lua_piece (Some UWhitespace) [32%Z] []); [discriminate | | constructor]|].
  - apply PBlank; [discriminate|]. split; [constructor; [unfold blank; auto | constructor] | discriminate || exact Logic.I || (intros ? H; discriminate H)].
  - split; [vm_compute; reflexivity|]. split; [vm_compute; discriminate | vm_compute; repeat constructor].
Qed.
Print Assumptions lua_tree_leaves_refuted.

(** No text is parsed without diagnostics: the end of the file is read as an expression. *)
Theorem lua_never_clean cs fuel root errs : Forall is_scalar cs -> mild cs -> (Z.of_nat (length (encode cs)) < 2 ^ 32)%Z ->
  lua_tree fuel (encode cs) = Some (root, errs) -> In (0, length (encode cs)) errs.
Proof.
  intros Sc Md L E. destruct (lua_tokens_partial cs Sc Md) as (ps & C & _). destruct (LuaProofs.tree_whole cs ps Sc Md L C fuel root errs E) as (_ & _ & _ & _ & _ & _ & R). exact R.
Qed.
Print Assumptions lua_never_clean.
(** A correct program should be parsed without diagnostics. *)
Theorem lua_clean_refuted : exists fuel root, lua_tree fuel (lit "x=1") = Some (root, [(0, 3)]).
Proof. exists 10. eexists. vm_compute. reflexivity. Qed.
Print Assumptions lua_clean_refuted.
(** Even the empty one *)
Example lua_never_clean_run : exists root, lua_tree 3 [] = Some (root, [(0, 0)]).
Proof. eexists. vm_compute. reflexivity. Qed.

(** Parsing never ends when the first piece that counts closes something. *)
Theorem lua_never_ends cs ps w k x qs fuel : Forall is_scalar cs -> mild cs -> (Z.of_nat (length (encode cs)) < 2 ^ 32)%Z -> cut lua_piece cs ps ->
  ps = w ++ (Some k, x) :: qs -> Forall trivia w -> In k closers -> lua_tree fuel (encode cs) = None.
Proof.
  intros Sc Md L C E F I. apply (LuaProofs.tree_stuck cs ps Sc Md L C fuel w k x qs E); [|exact I]. eapply Forall_impl; [|exact F]. intros p. apply LuaProofs.ign_trivia.
Qed.
Print Assumptions lua_never_ends.
(** Parsing should always end. *)
Theorem lua_total_refuted : exists t, forall fuel, lua_tree fuel t = None.
Proof.
  exists (lit " end"). intros fuel.
  change (lit " end") with (encode [32; 101; 110; 100]%Z). assert (C : cut lua_piece [32; 101; 110; 100]%Z [(Some UWhitespace, [32]%Z); (Some UEnd, [101; 110; 100]%Z)]).
  { apply (CutPiece lua_piece (Some UWhitespace) [32]%Z [101; 110; 100]%Z); [discriminate | |].
    - apply PBlank; [discriminate|]. split; [constructor; [now left | constructor]|]. intros c E. injection E as <-. unfold blank. lia.
    - apply (CutPiece lua_piece (Some UEnd) [101; 110; 100]%Z []); [discriminate | | constructor]. apply PWord; [left; left; lia | |].
      + split; [repeat constructor; unfold letter; lia | intros c; discriminate].
      + left. vm_compute. tauto. }
  apply (lua_never_ends _ _ [(Some UWhitespace, [32]%Z)] UEnd [101; 110; 100]%Z [] fuel) in C; [exact C | | | | reflexivity | |].
  - repeat (apply Forall_cons; [unfold is_scalar; cbn; lia|]); apply Forall_nil.
  - intros a c d b E I. assert (H : Forall (fun x => (x < 128)%Z) [32; 101; 110; 100]%Z) by (repeat constructor). rewrite E in H. apply Forall_app in H. destruct H as [_ H]. inversion H as [| ? ? _ H2]. now inversion H2.
  - vm_compute. reflexivity.
  - repeat constructor.
  - vm_compute. tauto.
Qed.
Print Assumptions lua_total_refuted.
