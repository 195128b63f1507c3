(** C14-C17 and C71-C73: scanners, guarded lexing loops and token reuse. *)
From Verif Require Import Base Utf8 Utf8Facts ScanSpec SimdModel SimdProofs RopeModel RopeSpec.
From Verif Require Import CursorModel CursorSpec CursorProofs.
From Verif Require Import LexModel LexSpec LexProofs LexLoopProofs.

(** *** C14 *)
Theorem scan_string_correct : forall src text quotes escape kind l,
  serves src text -> lx_placed src text l ->
  match escape with Some x => is_scalar x | None => True end ->
  exists b l', scan_string src quotes escape kind l = Some (b, l') /\ lx_placed src text l' /\
    if b then lx_pos l <= lx_pos l' /\ emits kind l l' /\
      exists q m, In q quotes /\ reads text (lx_pos l) m [q] /\
        literal_ends q escape text m (lx_pos l')
    else declines l l' /\ forall q m, reads text (lx_pos l) m [q] -> ~ In q quotes.
Proof. exact scan_string_spec. Qed.
Print Assumptions scan_string_correct.

(** The end described by [literal_ends] is unique unless the quote is its own escape. *)
Theorem literal_end_unique : forall q e text a b b', e <> Some q -> valid text ->
  is_boundary text a = true -> literal_ends q e text a b -> literal_ends q e text a b' -> b = b'.
Proof. exact literal_ends_unique. Qed.
Print Assumptions literal_end_unique.

Definition start_of (s : str) : lexer := Lexer (cursor_at (flat_source s) 0) [].

Example scan_string_example :
  option_map (fun r => (fst r, lx_toks (snd r)))
    (scan_string (flat_source (lit "'a\'b' c")) [39%Z] (Some 92%Z) 7 (start_of (lit "'a\'b' c")))
  = Some (true, [Token 7 0 6]).
Proof. vm_compute. reflexivity. Qed.

Example scan_string_placed_example : forall s, valid s -> lx_placed (flat_source s) s (start_of s).
Proof.
  intros s Hv. destruct (cursor_at_placed (flat_source s) s 0 (flat_serves s Hv)) as (H & _).
  - apply is_boundary_0.
  - exact H.
Qed.

(** With the quote as its own escape, an ASCII quote closes at the second quote while
    a non-ASCII quote is never closed: the two paths of the scanner disagree. *)
Theorem quote_as_own_escape_refuted : exists q1 q2,
  let run q := let s := encode [q; 97; q; 98]%Z in
               option_map (fun r => map (fun t => substr s (tk_start t) (tk_end t)) (lx_toks (snd r)))
                 (scan_string (flat_source s) [q] (Some q) 7 (start_of s)) in
  run q1 = Some [encode [q1; 97; q1]%Z] /\ run q2 = Some [encode [q2; 97; q2; 98]%Z].
Proof. exists 34%Z, 0xAB%Z. vm_compute. split; reflexivity. Qed.
Print Assumptions quote_as_own_escape_refuted.

(** *** C15 *)
Theorem scan_comment_correct : forall src text cfg lk bk l,
  serves src text -> lx_placed src text l ->
  valid (cc_line cfg) -> valid (cc_start cfg) -> valid (cc_end cfg) ->
  exists b l', scan_comment src cfg lk bk l = Some (b, l') /\ lx_placed src text l' /\
    let line := cc_line cfg <> [] /\ occurs (cc_line cfg) text (lx_pos l) in
    let block := cc_start cfg <> [] /\ occurs (cc_start cfg) text (lx_pos l) in
    if b then lx_pos l <= lx_pos l' /\
      ((line /\ emits lk l l' /\ line_ends text (lx_pos l + length (cc_line cfg)) (lx_pos l')) \/
       (~ line /\ block /\ emits bk l l' /\
        nested_ends cfg text (lx_pos l + length (cc_start cfg)) (lx_pos l')))
    else declines l l' /\ ~ line /\ ~ block.
Proof. exact scan_comment_spec. Qed.
Print Assumptions scan_comment_correct.

(** With nesting off the balanced end is the first terminator. *)
Theorem unnested_comment_first_terminator : forall cfg text,
  valid text -> valid (cc_end cfg) -> cc_end cfg <> [] -> cc_nested cfg = false ->
  forall a b, is_boundary text a = true ->
  nested_ends cfg text a b -> block_ends (cc_end cfg) text a b.
Proof. exact unnested_block. Qed.
Print Assumptions unnested_comment_first_terminator.

Theorem scan_line_comment_correct : forall src text kind p l,
  serves src text -> lx_placed src text l -> valid p ->
  exists b l', scan_line_comment src kind p l = Some (b, l') /\ lx_placed src text l' /\
    if b then lx_pos l <= lx_pos l' /\ emits kind l l' /\ occurs p text (lx_pos l) /\
      line_ends text (lx_pos l + length p) (lx_pos l')
    else declines l l' /\ ~ occurs p text (lx_pos l).
Proof. exact scan_line_comment_spec. Qed.
Print Assumptions scan_line_comment_correct.

Theorem scan_block_comment_correct : forall src text kind s e l,
  serves src text -> lx_placed src text l -> valid s -> valid e -> e <> [] ->
  exists b l', scan_block_comment src kind s e l = Some (b, l') /\ lx_placed src text l' /\
    if b then lx_pos l <= lx_pos l' /\ emits kind l l' /\ occurs s text (lx_pos l) /\
      block_ends e text (lx_pos l + length s) (lx_pos l')
    else declines l l' /\ ~ occurs s text (lx_pos l).
Proof. exact scan_block_comment_spec. Qed.
Print Assumptions scan_block_comment_correct.

(** An empty terminator makes the same scanner panic (index 0 of an empty slice),
    where [CommentConfig] simply runs to the end of the text. *)
Theorem empty_terminator_refuted : exists text,
  scan_block_comment (flat_source text) 7 (lit "/*") [] (start_of text) = None /\
  option_map (fun r => lx_toks (snd r))
    (scan_comment (flat_source text) (CommentConfig [] (lit "/*") [] false) 1 7 (start_of text))
  = Some [Token 7 0 (length text)].
Proof. exists (lit "/* x"). vm_compute. split; reflexivity. Qed.
Print Assumptions empty_terminator_refuted.

Example scan_comment_example :
  let cfg := CommentConfig (lit "//") (lit "/*") (lit "*/") true in
  option_map (fun r => lx_toks (snd r))
    (scan_comment (flat_source (lit "/*a/*b*/c*/d")) cfg 1 2 (start_of (lit "/*a/*b*/c*/d")))
  = Some [Token 2 0 11].
Proof. vm_compute. reflexivity. Qed.

Example unnested_comment_example :
  let cfg := CommentConfig (lit "//") (lit "/*") (lit "*/") false in
  option_map (fun r => lx_toks (snd r))
    (scan_comment (flat_source (lit "/*a/*b*/c*/d")) cfg 1 2 (start_of (lit "/*a/*b*/c*/d")))
  = Some [Token 2 0 8].
Proof. vm_compute. reflexivity. Qed.

(** *** C16 *)
(** One guarded round strictly advances. *)
Theorem guard_makes_progress : forall src text sp l, serves src text -> lx_placed src text l ->
  sp < length text -> sp <= lx_pos l ->
  let l' := advance_if_dead_lock src sp l in
  lx_placed src text l' /\ lx_toks l' = lx_toks l /\ sp < lx_pos l' /\ lx_pos l <= lx_pos l'.
Proof. exact guard_spec. Qed.
Print Assumptions guard_makes_progress.

(** Whatever the rules do, as long as they do not move backwards, the loop ends at
    the end of the text. *)
Theorem guarded_loop_terminates : forall src text rules l,
  serves src text ->
  (forall l0, lx_placed src text l0 -> exists l', rules l0 = Some l' /\
     lx_placed src text l' /\ lx_pos l0 <= lx_pos l') ->
  lx_placed src text l ->
  exists l', guarded_loop src rules (scan_fuel src) l = Some l' /\ lx_placed src text l' /\
    lx_pos l' = length text.
Proof.
  intros src text rules l Hs Hr Hp.
  destruct (guarded_loop_spec src text rules (fun _ => True) Hs) with (fuel := scan_fuel src) (l := l)
    as (l' & H1 & H2 & H3 & _); auto.
  - intros l0 Hp0 _ _. destruct (Hr l0 Hp0) as (l' & H). exists l'. tauto.
  - unfold scan_fuel. destruct Hs as (_ & -> & _). lia.
  - exists l'. auto.
Qed.
Print Assumptions guarded_loop_terminates.

(** A rule that falls back before the start of its round defeats the guard: the
    loop runs forever although every round succeeds. *)
Definition backing_rule (l : lexer) : option lexer :=
  Some (Lexer (set_position (flat_source (lit "ab")) (lx_cur l) 0) (lx_toks l)).

Theorem backward_rule_diverges_refuted :
  (forall l, lx_placed (flat_source (lit "ab")) (lit "ab") l -> exists l', backing_rule l = Some l' /\
     lx_placed (flat_source (lit "ab")) (lit "ab") l') /\
  forall fuel, guarded_loop (flat_source (lit "ab")) backing_rule fuel (start_of (lit "ab")) = None.
Proof.
  split.
  - intros l Hp. eexists. split; [reflexivity|]. split; [apply Hp | reflexivity].
  - set (src := flat_source (lit "ab")).
    assert (H : forall fuel,
      guarded_loop src backing_rule fuel (Lexer (Cursor 0 0 (lit "ab")) []) = None /\
      guarded_loop src backing_rule fuel (Lexer (Cursor 1 0 (lit "ab")) []) = None).
    { induction fuel as [| f [IH0 IH1]]; [split; reflexivity|]. split.
      - transitivity (guarded_loop src backing_rule f (Lexer (Cursor 1 0 (lit "ab")) [])); [reflexivity | exact IH1].
      - transitivity (guarded_loop src backing_rule f (Lexer (Cursor 0 0 (lit "ab")) [])); [reflexivity | exact IH0]. }
    intros fuel. exact (proj1 (H fuel)).
Qed.
Print Assumptions backward_rule_diverges_refuted.

(** *** C71 *)
Theorem scan_whitespace_correct : forall src text unicode ws kind l, serves src text -> lx_placed src text l ->
  exists b l', scan_whitespace src unicode ws kind l = Some (b, l') /\ lx_placed src text l' /\
    (b = true <-> lx_pos l < lx_pos l') /\
    (if b then emits kind l l' else declines l l') /\
    if unicode then exists cs, reads text (lx_pos l) (lx_pos l') cs /\ Forall (fun c => ws c = true) cs /\
      (forall e ch, reads text (lx_pos l') e [ch] -> ws ch = false)
    else exists n, lx_pos l' = lx_pos l + n /\ longest_run whitespace_byte (skipn (lx_pos l) text) n.
Proof. exact scan_whitespace_spec. Qed.
Print Assumptions scan_whitespace_correct.

Theorem scan_identifier_correct : forall src text kind l, serves src text -> lx_placed src text l ->
  exists b l', scan_ascii_identifier src kind l = Some (b, l') /\ lx_placed src text l' /\
    if b then emits kind l l' /\ (exists x, nth_error text (lx_pos l) = Some x /\ ident_start x) /\
      exists n, 0 < n /\ lx_pos l' = lx_pos l + n /\ longest_run ident_byte (skipn (lx_pos l) text) n
    else declines l l' /\ forall x, nth_error text (lx_pos l) = Some x -> ~ ident_start x.
Proof. exact scan_ident_spec. Qed.
Print Assumptions scan_identifier_correct.

(** U+00A0 is skipped only in Unicode mode. *)
Example scan_whitespace_example :
  let s := encode [32; 0xA0; 120]%Z in
  option_map (fun r => lx_toks (snd r)) (scan_whitespace (flat_source s) true char_is_whitespace 3 (start_of s))
  = Some [Token 3 0 3] /\
  option_map (fun r => lx_toks (snd r)) (scan_whitespace (flat_source s) false char_is_whitespace 3 (start_of s))
  = Some [Token 3 0 1].
Proof. vm_compute. split; reflexivity. Qed.

(** *** C72 *)
(** The library scanners are well-behaved scanners... *)
Theorem library_scanners_ok : forall src text, serves src text ->
  (forall quotes escape kind, match escape with Some x => is_scalar x | None => True end ->
     scanner_ok src text (scan_string src quotes escape kind)) /\
  (forall cfg lk bk, valid (cc_line cfg) -> valid (cc_start cfg) -> valid (cc_end cfg) ->
     scanner_ok src text (scan_comment src cfg lk bk)) /\
  (forall kind p, valid p -> scanner_ok src text (scan_line_comment src kind p)) /\
  (forall kind s e, valid s -> valid e -> e <> [] -> scanner_ok src text (scan_block_comment src kind s e)) /\
  (forall u ws kind, scanner_ok src text (scan_whitespace src u ws kind)) /\
  (forall kind, scanner_ok src text (scan_ascii_identifier src kind)).
Proof.
  intros src text Hs. repeat split; unfold scanner_ok; intros.
  - destruct (scan_string_spec src text quotes escape kind l Hs H0 H) as (b & l' & H1 & H2 & H3).
    exists b, l'. split; [assumption|]. split; [assumption|]. destruct b; [|tauto].
    split; [tauto|]. exists kind. tauto.
  - destruct (scan_comment_spec src text cfg lk bk l Hs H2 H H0 H1) as (b & l' & H3 & H4 & H5).
    exists b, l'. split; [assumption|]. split; [assumption|]. cbv zeta in H5. destruct b; [|tauto].
    split; [tauto|]. destruct H5 as (_ & [(_ & H5 & _) | (_ & _ & H5 & _)]); [exists lk | exists bk]; assumption.
  - destruct (scan_line_comment_spec src text kind p l Hs H0 H) as (b & l' & H1 & H2 & H3).
    exists b, l'. split; [assumption|]. split; [assumption|]. destruct b; [|tauto].
    split; [tauto|]. exists kind. tauto.
  - destruct (scan_block_comment_spec src text kind s e l Hs H2 H H0 H1) as (b & l' & H3 & H4 & H5).
    exists b, l'. split; [assumption|]. split; [assumption|]. destruct b; [|tauto].
    split; [tauto|]. exists kind. tauto.
  - destruct (scan_whitespace_spec src text u ws kind l Hs H) as (b & l' & H1 & H2 & H3 & H4 & _).
    exists b, l'. split; [assumption|]. split; [assumption|]. destruct b; [|tauto].
    split; [assert (lx_pos l < lx_pos l') by tauto; lia|]. exists kind. tauto.
  - destruct (scan_ident_spec src text kind l Hs H) as (b & l' & H1 & H2 & H3).
    exists b, l'. split; [assumption|]. split; [assumption|]. destruct b; [|tauto].
    destruct H3 as (H3 & _ & n & _ & H4 & _). split; [lia|]. exists kind. tauto.
Qed.
Print Assumptions library_scanners_ok.

(** ... and every lexer made of well-behaved scanners and the guard reaches the end
    of every text with ordered, non-overlapping, in-range tokens. *)
Theorem scanner_lexer_orders_tokens : forall src text fs l,
  serves src text -> Forall (scanner_ok src text) fs -> lx_placed src text l ->
  ordered 0 (lx_toks l) (lx_pos l) ->
  exists l', guarded_loop src (try_scanners fs) (scan_fuel src) l = Some l' /\ lx_placed src text l' /\
    lx_pos l' = length text /\ ordered 0 (lx_toks l') (length text).
Proof. exact scanner_lexer_spec. Qed.
Print Assumptions scanner_lexer_orders_tokens.

Example scanner_lexer_example :
  let s := lit "x1 // c" in let src := flat_source s in
  option_map lx_toks (guarded_loop src
     (try_scanners [scan_whitespace src false char_is_whitespace 1; scan_line_comment src 2 (lit "//");
                    scan_ascii_identifier src 3]) (scan_fuel src) (start_of s))
  = Some [Token 3 0 2; Token 1 2 3; Token 2 3 7].
Proof. vm_compute. reflexivity. Qed.

(** *** C17 *)
(** Holds whenever the first changed byte is before the end of the new text; missing
    from the full claim is the case of an edit at the new end (see the refutations). *)
Theorem cache_reuse_sound_partial : forall src ts slice n b, ordered 0 ts b -> n < src_len src ->
  exists l, new_with_cache src n (Cache ts slice) = Some l /\
    lx_pos l = last_end (lx_toks l) /\
    Forall (fun t => tk_end t <= n) (lx_toks l) /\
    ((lx_toks l = [] /\ (n = 0 \/ forall t u r, ts = t :: u :: r -> n < tk_end u)) \/
     exists t rest, ts = lx_toks l ++ t :: rest /\ tk_end t <= n /\ Forall (fun u => n < tk_end u) rest).
Proof. exact reuse_spec. Qed.
Print Assumptions cache_reuse_sound_partial.

Example cache_reuse_example :
  option_map (fun l => (lx_toks l, lx_pos l))
    (new_with_cache (flat_source (lit "ab cdX ef")) 5
       (Cache [Token 1 0 2; Token 2 2 3; Token 1 3 5; Token 2 5 6; Token 1 6 8] true))
  = Some ([Token 1 0 2; Token 2 2 3], 3).
Proof. vm_compute. reflexivity. Qed.

(** Cutting text off at the end keeps tokens that lie beyond the new end. *)
Theorem cache_reuse_truncation_refuted : exists old new ts n l,
  firstn n old = firstn n new /\ n <= length new /\ ordered 0 ts (length old) /\
  new_with_cache (flat_source new) n (Cache ts true) = Some l /\
  ~ Forall (fun t => tk_end t <= length new) (lx_toks l).
Proof.
  exists (lit "ab cd"), (lit "ab"), [Token 1 0 2; Token 2 2 3; Token 1 3 5], 2. eexists.
  split; [reflexivity|]. split; [cbn; lia|]. split; [repeat constructor|].
  split; [vm_compute; reflexivity|]. intros H. cbn in H. rewrite Forall_forall in H.
  specialize (H (Token 1 3 5) ltac:(cbn; tauto)). cbn in H. lia.
Qed.
Print Assumptions cache_reuse_truncation_refuted.

(** Even a request to lex from offset 0 returns the old tokens when the new text is empty. *)
Theorem cache_reuse_empty_refuted : exists ts l, ts <> [] /\
  new_with_cache (flat_source []) 0 (Cache ts true) = Some l /\ lx_toks l = ts.
Proof. exists [Token 1 0 2]. eexists. split; [discriminate|]. split; vm_compute; reflexivity. Qed.
Print Assumptions cache_reuse_empty_refuted.

(** *** C73 *)
(** Resuming gives exactly the tokens of lexing the new text from scratch, for
    recognisers that look at most one token ahead, when the cache holds just the
    tokens of the old text.  Missing from the full claim: caches that also hold an
    end-of-stream token, see the refutation. *)
Theorem resumed_lexing_partial : forall next old new src ts slice n l more,
  one_token_lookahead next -> lexes next old 0 ts ->
  firstn n old = firstn n new -> n <= length old -> n < length new -> src_len src = length new ->
  new_with_cache src n (Cache ts slice) = Some l -> lexes next new (lx_pos l) more ->
  lexes next new 0 (lx_toks l ++ more).
Proof.
  intros next old new src ts slice n l more Hloc Hl Hag Hn1 Hn2 Hlen Hnew Hmore.
  destruct (reuse_spec src ts slice n (length old) (lexes_ordered _ _ _ _ Hl)) as (l0 & H1 & H2 & H3 & H4); [lia|].
  assert (l0 = l) by congruence. subst l0. rewrite H2 in Hmore.
  destruct H4 as [(He & _) | (t & rest & He & Ht & _)].
  - rewrite He in *. exact Hmore.
  - rewrite He in Hl. apply (lexes_replay next old new n Hloc Hag Hn1 ltac:(lia) _ 0 t rest more Hl Ht).
    unfold last_end in Hmore. exact Hmore.
Qed.
Print Assumptions resumed_lexing_partial.

(** The same with an end-of-stream token in the cache, if the edit is strictly
    inside the old text. *)
Theorem resumed_lexing_eof_partial : forall next old new src ts slice n l more eof,
  one_token_lookahead next -> lexes next old 0 ts -> tk_start eof = length old -> tk_end eof = length old ->
  firstn n old = firstn n new -> n < length old -> n < length new -> src_len src = length new ->
  new_with_cache src n (Cache (ts ++ [eof]) slice) = Some l -> lexes next new (lx_pos l) more ->
  lexes next new 0 (lx_toks l ++ more).
Proof.
  intros next old new src ts slice n l more eof Hloc Hl He1 He2 Hag Hn1 Hn2 Hlen Hnew Hmore.
  assert (Ho : ordered 0 (ts ++ [eof]) (tk_end eof)).
  { apply (ordered_snoc 0 ts (length old)); [now apply lexes_ordered with (next := next) | lia | lia]. }
  destruct (reuse_spec src (ts ++ [eof]) slice n _ Ho) as (l0 & H1 & H2 & H3 & H4); [lia|].
  assert (l0 = l) by congruence. subst l0. rewrite H2 in Hmore.
  destruct H4 as [(He & _) | (t & rest & He & Ht & Hrest)].
  - rewrite He in *. exact Hmore.
  - destruct (exists_last (l := t :: rest) ltac:(discriminate)) as (r' & x & Hr').
    rewrite Hr', app_assoc in He. apply app_inj_tail in He. destruct He as [He Hx]. subst x.
    destruct r' as [| t' r'].
    + cbn in Hr'. injection Hr' as -> _. lia.
    + cbn in Hr'. injection Hr' as <- Hr'. rewrite He in Hl.
      apply (lexes_replay next old new n Hloc Hag ltac:(lia) ltac:(lia) _ 0 t r' more Hl Ht).
      unfold last_end in Hmore. exact Hmore.
Qed.
Print Assumptions resumed_lexing_eof_partial.

(** Words: a maximal run of identifier characters, or a single other byte. *)
Definition word_rec : recogniser := fun s off =>
  Token 1 off (off + Nat.max 1 (span_len (fun b => is_ascii_alphanumeric b || (b =? 95)%Z) (skipn off s))).

Lemma word_rec_local : one_token_lookahead word_rec.
Proof.
  intros s s' off. cbv zeta. unfold word_rec. cbn [tk_end].
  set (p := fun b => is_ascii_alphanumeric b || (b =? 95)%Z).
  set (k := span_len p (skipn off s)). set (m := off + Nat.max 1 k + Nat.max 1 (span_len p (skipn (off + Nat.max 1 k) s))).
  intros H1 H2 Hag. do 2 f_equal. f_equal.
  assert (Hlen' : m <= length s').
  { destruct (Nat.le_gt_cases m (length s')) as [|Hc]; [assumption|]. exfalso.
    assert (Hl : length (firstn m s) = length (firstn m s')) by now rewrite Hag.
    rewrite !firstn_length in Hl. lia. }
  assert (Hsplit : forall z : str, m <= length z -> skipn off z = skipn off (firstn m z) ++ skipn m z).
  { intros z Hz. rewrite <- (firstn_skipn m z) at 1. apply skipn_app_le. rewrite firstn_length. lia. }
  assert (Hlc : length (skipn off (firstn m s)) = m - off) by (rewrite skipn_length, firstn_length; lia).
  unfold k. rewrite (Hsplit s' Hlen'), <- Hag, (Hsplit s) by lia.
  assert (Hk : k = span_len p (skipn off (firstn m s) ++ skipn m s)) by (unfold k; now rewrite <- Hsplit by lia).
  rewrite !span_len_app in *. destruct (span_len p (skipn off (firstn m s)) <? length (skipn off (firstn m s))) eqn:E; [reflexivity|].
  exfalso. lia.
Qed.

(** An appended word character is split off when the cache ends in an end-of-stream
    token: that token uses up the one-token safety margin. *)
Theorem resumed_lexing_append_refuted : exists old new ts eof n l more,
  one_token_lookahead word_rec /\ lexes word_rec old 0 ts /\ tk_start eof = length old /\ tk_end eof = length old /\
  firstn n old = firstn n new /\ n <= length old /\ n < length new /\
  new_with_cache (flat_source new) n (Cache (ts ++ [eof]) true) = Some l /\
  lexes word_rec new (lx_pos l) more /\ ~ lexes word_rec new 0 (lx_toks l ++ more).
Proof.
  exists (lit "ab"), (lit "abc"), [Token 1 0 2], (Token 9 2 2), 2. eexists. exists [Token 1 2 3].
  split; [exact word_rec_local|].
  split. { change [Token 1 0 2] with [word_rec (lit "ab") 0]. apply LStep; [cbn; lia | reflexivity | split; apply Nat.leb_le; vm_compute; reflexivity |]. apply (LDone word_rec (lit "ab")). }
  split; [reflexivity|]. split; [reflexivity|]. split; [reflexivity|]. split; [cbn; lia|]. split; [cbn; lia|].
  split; [vm_compute; reflexivity|].
  split.
  { change (lx_pos _) with 2. change [Token 1 2 3] with [word_rec (lit "abc") 2]. apply LStep; [cbn; lia | reflexivity | split; apply Nat.leb_le; vm_compute; reflexivity |].
    apply (LDone word_rec (lit "abc")). }
  cbn [lx_toks app]. intros H. inversion H.
Qed.
Print Assumptions resumed_lexing_append_refuted.

Example resumed_lexing_example :
  lexes word_rec (lit "ab cd") 0 [Token 1 0 2; Token 1 2 3; Token 1 3 5].
Proof.
  change (Token 1 0 2) with (word_rec (lit "ab cd") 0).
  change (Token 1 2 3) with (word_rec (lit "ab cd") 2).
  change (Token 1 3 5) with (word_rec (lit "ab cd") 3).
  repeat (apply LStep; [cbn; lia | reflexivity | split; apply Nat.leb_le; vm_compute; reflexivity |]). apply (LDone word_rec (lit "ab cd")).
Qed.

(** [bump] consumes exactly the character at the position. *)
Theorem bump_correct : forall src text l, serves src text -> lx_placed src text l ->
  let '(r, l') := lx_bump src l in
  lx_placed src text l' /\ lx_toks l' = lx_toks l /\
  match r with
  | Some ch => reads text (lx_pos l) (lx_pos l') [ch]
  | None => lx_pos l' = lx_pos l /\ lx_pos l = length text
  end.
Proof.
  intros src text l Hs Hp. unfold lx_bump.
  destruct (lx_current_spec src text l Hs Hp) as (r & l1 & -> & Hc & Hp1 & Ho1 & Ht1).
  destruct r as [ch|].
  - destruct Hc as (e & Hr). pose proof (reads_end _ _ _ _ Hr) as He.
    cbn [encode] in He. rewrite app_nil_r, encode_char_length in He.
    destruct (lx_advance_spec src text l1 (char_len ch) Hs Hp1) as (H1 & H2 & H3).
    + rewrite Ho1, <- He. destruct Hs as (Hv & _). destruct Hp as (_ & Hb).
      exact (reads_boundary _ _ _ _ Hv Hb Hr).
    + split; [assumption|]. split; [congruence|]. rewrite H2, Ho1, <- He. exact Hr.
  - split; [assumption|]. split; [assumption|]. split; [assumption|].
    cbn in Hc. destruct Hp as (_ & Hb). pose proof (is_boundary_le _ _ Hb). unfold lx_pos in *. lia.
Qed.
Print Assumptions bump_correct.

(** The end marker is an empty token at the end of what was lexed. *)
Theorem eof_token_correct : forall l eof b, ordered 0 (lx_toks l) (lx_pos l) -> lx_pos l <= b ->
  ordered 0 (lx_toks (add_eof l eof)) b /\ lx_pos (add_eof l eof) = lx_pos l /\
  lx_toks (add_eof l eof) = lx_toks l ++ [Token eof (lx_pos l) (lx_pos l)].
Proof.
  intros l eof b Ho Hb. split; [|split; reflexivity].
  unfold add_eof, add_token. cbn [lx_toks].
  apply (ordered_weaken 0 _ (lx_pos l) b); [|lia].
  exact (ordered_snoc 0 _ (lx_pos l) (Token eof (lx_pos l) (lx_pos l)) Ho (le_n _) (le_n _)).
Qed.
Print Assumptions eof_token_correct.

(** The Unicode White_Space code points (UCD PropList.txt). *)
Definition white_space : list Z :=
  ([0x09; 0x0A; 0x0B; 0x0C; 0x0D; 0x20; 0x85; 0xA0; 0x1680; 0x2000; 0x2001; 0x2002; 0x2003;
    0x2004; 0x2005; 0x2006; 0x2007; 0x2008; 0x2009; 0x200A; 0x2028; 0x2029; 0x202F; 0x205F; 0x3000])%Z.

Theorem char_is_whitespace_correct : forall c, char_is_whitespace c = true <-> In c white_space.
Proof.
  intros c. unfold char_is_whitespace, white_space. cbn [In].
  rewrite !orb_true_iff, !andb_true_iff, !Z.leb_le, !Z.eqb_eq. lia.
Qed.
Print Assumptions char_is_whitespace_correct.
