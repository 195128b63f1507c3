(** C23-C32, C74-C76: parsing. *)
From Verif Require Import Base Utf8 Utf8Facts EditModel EditSpec LexModel TreeModel TreeSpec TreeProofs ParserModel ParserSpec
  ParserProofs PrattSpec PrattProofs.

(** ** Example language: every byte is a token whose kind is the byte; blanks (32) are trivia. *)
Fixpoint byte_tokens (off : nat) (text : str) : list token :=
  match text with [] => [] | b :: r => Token (Z.to_nat b) off (S off) :: byte_tokens (S off) r end.
Definition lex_bytes (text : str) : list token := byte_tokens 0 text.
Definition blank (k : nat) : bool := k =? 32.

(** [n] items, each a node of kind 200 around one token; then the root of kind 201 from the checkpoint
    taken at the start ([looking] only reads the state). *)
Definition looking (k : pstate -> code) : code := Attempt (Done true) (fun _ s => k s).
Definition item_node : code := incremental_node 200 (Do Bump (fun _ _ => Done true)).
Fixpoint items (n : nat) : code :=
  match n with O => Done true | S n' => bind item_node (fun _ => items n') end.
Definition document (n : nat) : code :=
  looking (fun s => bind (items n) (fun _ => Do (Finish (length (ps_sink s)) 201) (fun _ _ => Done true))).
(** The same without reuse, the root wrapping everything. *)
Fixpoint plain_items (n : nat) : code :=
  match n with
  | O => Do (Finish 0 201) (fun _ _ => Done true)
  | S n' => looking (fun s => Do Bump (fun _ _ => Do (Finish (length (ps_sink s)) 200) (fun _ _ => plain_items n')))
  end.

(** ** C23 *)
Theorem parser_lossless : forall ign toks srclen diags parser ok s,
  lengths_fit toks ->
  keeps False ign 0 parser (ps_new ign toks srclen diags) ->
  interp ign parser (ps_new ign toks srclen diags) = Some (ok, s) ->
  lossless toks s /\ settled ign s.
Proof.
  intros ign toks srclen diags parser ok s Hf K E.
  assert (I0 : inv ign toks (GLeaf 0 0 None) False (ps_new ign toks srclen diags)).
  { split; [|split; [tauto | intros _; apply skip_settled]]. apply skip_good; [exact Hf|].
    split; [reflexivity|]. split; [cbn; lia|]. split; [constructor|]. split; reflexivity. }
  destruct (interp_inv ign toks (GLeaf 0 0 None) False Hf ltac:(tauto) parser 0 _ ok s I0 (Nat.le_0_l _) K E) as [(G & _ & S) _].
  split; [|apply S; tauto]. apply good_lossless. destruct G as (A & B & C & D & F).
  split; [exact A|]. split; [exact B|]. split; [exact C|]. split; [exact D|]. intros _. apply F. tauto.
Qed.
Print Assumptions parser_lossless.

Theorem finished_tree_is_the_source : forall ign toks text diags parser ok s root,
  lengths_fit toks -> tiles tok_span 0 toks (length text) ->
  keeps False ign 0 parser (ps_new ign toks (length text) diags) ->
  interp ign parser (ps_new ign toks (length text) diags) = Some (ok, s) ->
  to_come s = [] -> sink_trees s = [root] ->
  leaves root 0 = map (fun t => (tk_kind t, tk_start t, tk_end t)) toks /\
  concat (map (fun '(_, a, b) => substr text a b) (leaves root 0)) = text.
Proof.
  intros ign toks text diags parser ok s root Hf Ht K E Hd Hr.
  destruct (parser_lossless _ _ _ _ _ _ _ Hf K E) as [(_ & _ & L) _].
  rewrite Hd, app_nil_r in L. unfold in_tree in L. rewrite Hr in L. cbn in L. rewrite app_nil_r in L.
  assert (Hl : leaves root 0 = map (fun t => (tk_kind t, tk_start t, tk_end t)) toks).
  { eapply tiled_leaves; [apply leaves_tile | eauto |]. now rewrite leaves_of_yield. }
  split; [exact Hl|]. rewrite Hl, map_map. cbv beta iota.
  rewrite (tiled_text _ _ _ _ Ht) by lia. apply Utf8Facts.substr_full.
Qed.
Print Assumptions finished_tree_is_the_source.

Example lossless_example :
  let toks := lex_bytes (lit " a b") in
  let s := ps_new blank toks 4 [] in
  lengths_fit toks /\ tiles tok_span 0 toks 4 /\ keeps False blank 0 (plain_items 2) s /\
  option_map (fun r => (to_come (snd r), sink_trees (snd r))) (interp blank (plain_items 2) s) =
  Some ([], [GNode 201 4 [GLeaf 32 1 None; GNode 200 2 [GLeaf 97 1 None; GLeaf 32 1 None]; GNode 200 1 [GLeaf 98 1 None]]]).
Proof.
  cbv zeta. split; [repeat constructor|]. split; [repeat (apply TCons; cbn; [reflexivity | lia|]); constructor|].
  split; [|vm_compute; reflexivity].
  cbn [plain_items looking keeps]. split; [exact I|]. intros ok s' H. injection H as <- <-. cbv zeta iota beta.
  split; [exact I|]. intros r1 s1 H1. split; [lia|]. intros r2 s2 H2.
  split; [exact I|]. intros ok3 s3 H3. injection H3 as <- <-. cbv zeta iota beta.
  split; [exact I|]. intros r4 s4 H4. split; [lia|]. intros r5 s5 H5.
  split; [lia|]. intros r6 s6 H6. exact I.
Qed.

(** With reuse of old nodes: every byte of the input is covered exactly once. *)
Theorem incremental_parser_covers : forall ign toks srclen diags old es parser ok s,
  lengths_fit toks -> Forall (fun t => tk_start t <= tk_end t) toks -> built old ->
  let s0 := set_inc (ps_new ign toks srclen diags) (Some (inc_new old es)) in
  keeps True ign 0 parser s0 -> interp ign parser s0 = Some (ok, s) -> covering toks s.
Proof.
  intros ign toks srclen diags old es parser ok s Hf Ho Hb s0 K E.
  assert (I0 : inv ign toks old True s0).
  { split; [|split; [intros _; split; [exact Hb | apply PRoot] | tauto]].
    apply inv_current. apply skip_good; [exact Hf|].
    split; [reflexivity|]. split; [cbn; lia|]. split; [constructor|]. split; [reflexivity | tauto]. }
  destruct (interp_inv ign toks old True Hf ltac:(auto) parser 0 _ ok s I0 (Nat.le_0_l _) K E) as [(G & _) _].
  eapply good_covering; exact G.
Qed.
Print Assumptions incremental_parser_covers.

Example covers_example :
  let toks := lex_bytes (lit "a b") in
  let old := GNode 201 3 [GNode 200 2 [GLeaf 97 1 None; GLeaf 32 1 None]; GNode 200 1 [GLeaf 98 1 None]] in
  let s0 := set_inc (ps_new blank toks 3 []) (Some (inc_new old [])) in
  built old /\ keeps True blank 0 item_node s0 /\
  option_map (fun r => (ps_index (snd r), sink_trees (snd r))) (interp blank item_node s0) =
  Some (2, [GNode 200 2 [GLeaf 97 1 None; GLeaf 32 1 None]]).
Proof.
  cbv zeta. split; [|split].
  - apply (BNode 201 [GNode 200 2 [GLeaf 97 1 None; GLeaf 32 1 None]; GNode 200 1 [GLeaf 98 1 None]]); [|reflexivity].
    constructor; [|constructor; [|constructor]].
    + apply (BNode 200 [GLeaf 97 1 None; GLeaf 32 1 None]); [repeat constructor | reflexivity].
    + apply (BNode 200 [GLeaf 98 1 None]); [repeat constructor | reflexivity].
  - cbn [item_node incremental_node keeps]. split; [exact I|]. intros r s' H.
    vm_compute in H. injection H as <- <-. exact I.
  - vm_compute. reflexivity.
Qed.

(** ** C74: the root idiom *)
Theorem root_covers_source_refuted : exists text parser s root,
  let toks := lex_bytes text in
  parser = document 1 /\
  interp blank parser (ps_new blank toks (length text) []) = Some (true, s) /\ to_come s = [] /\
  last_node s = Some root /\ width root < length text /\
  map (fun '(_, a, b) => substr text a b) (leaves root 0) <> map (fun t => substr text (tk_start t) (tk_end t)) (tl toks).
Proof.
  exists (lit " a"), (document 1). eexists. eexists. cbv zeta.
  split; [reflexivity|]. split; [vm_compute; reflexivity|]. split; [reflexivity|]. split; [reflexivity|].
  split; [cbn; lia|]. intros Hx; vm_compute in Hx; discriminate Hx.
Qed.
Print Assumptions root_covers_source_refuted.

(** Closed from the very first element, the root has everything that was consumed. *)
Theorem root_covers_source_partial : forall ign toks srclen diags parser ok s k it s',
  lengths_fit toks ->
  keeps False ign 0 parser (ps_new ign toks srclen diags) ->
  interp ign parser (ps_new ign toks srclen diags) = Some (ok, s) ->
  finish_at s (0, 0) k = Some (it, s') ->
  sink_trees s' = [snd it] /\ yield (snd it) ++ map tok_yield (to_come s') = map tok_yield toks.
Proof.
  intros ign toks srclen diags parser ok s k it s' Hf K E F.
  destruct (parser_lossless _ _ _ _ _ _ _ Hf K E) as [(A & B & L) _].
  unfold finish_at in F. cbn [snd] in F. cbn [Nat.ltb Nat.leb skipn firstn app] in F.
  destruct (new_node k (map snd (ps_sink s))) as [g|] eqn:N; [|discriminate]. injection F as <- <-.
  split; [reflexivity|]. cbn [snd]. unfold new_node in N. destruct (fits_u32 _); [|discriminate]. injection N as <-.
  exact L.
Qed.
Print Assumptions root_covers_source_partial.

Example root_partial_example :
  let toks := lex_bytes (lit " a") in
  match interp blank (Do Bump (fun _ _ => Done true)) (ps_new blank toks 2 []) with
  | Some (_, s) => option_map fst (finish_at s (0, 0) 201)
  | None => None
  end = Some (Some 0, GNode 201 2 [GLeaf 32 1 None; GLeaf 97 1 None]).
Proof. vm_compute. reflexivity. Qed.

(** ** C24 *)
Theorem skipping_is_lossless_refuted : exists toks kinds s,
  lengths_fit toks /\ interp blank (Do (AdvanceUntil kinds) (fun _ _ => Done true)) (ps_new blank toks (length toks) []) = Some (true, s) /\
  in_tree s ++ map tok_yield (to_come s) <> map tok_yield toks.
Proof.
  exists (lex_bytes (lit "x ;")), [59]. eexists. split; [repeat constructor|]. split; [vm_compute; reflexivity|].
  intros Hx; vm_compute in Hx; discriminate Hx.
Qed.
Print Assumptions skipping_is_lossless_refuted.

(** What recovery does: it stops at a wanted kind or at the end, never passes a wanted token, keeps the
    trivia it passes and drops every other token. *)
Theorem skipping_drops_only_tokens_partial : forall ign kinds s,
  lengths_fit (ps_toks s) -> settled ign s -> ps_index s <= length (ps_toks s) ->
  let s' := advance_until_any ign kinds s in
  exists skipped, to_come s = skipped ++ to_come s' /\
    in_tree s' = in_tree s ++ map tok_yield (filter (fun t => ign (tk_kind t)) skipped) /\
    match to_come s' with [] => True | t :: _ => In (tk_kind t) kinds end /\
    Forall (fun t => ign (tk_kind t) = true \/ ~ In (tk_kind t) kinds) skipped.
Proof. intros ign kinds s Hf Hs Hi. cbv zeta. now apply advance_loop_exact. Qed.
Print Assumptions skipping_drops_only_tokens_partial.

Theorem advance_until_is_any : forall ign k s, advance_until ign k s = advance_until_any ign [k] s.
Proof.
  intros ign k s. unfold advance_until, advance_until_any.
  generalize (length (ps_toks s) - ps_index s). intros n. revert s.
  induction n as [|n IH]; intros s; [reflexivity|]. cbn [advance_loop existsb].
  rewrite orb_false_r. destruct (ps_not_at_end s && negb (at_kind s k)); [apply IH | reflexivity].
Qed.
Print Assumptions advance_until_is_any.

Example skipping_example :
  let s := ps_new blank (lex_bytes (lit "x y ; z")) 7 [] in
  settled blank s /\ map tk_kind (to_come (advance_until_any blank [59] s)) = [59; 32; 122] /\
  in_tree (advance_until_any blank [59] s) = [(32, 1); (32, 1)].
Proof. vm_compute. auto. Qed.

(** ** C25 *)
Theorem failed_attempt_restores_partial : forall ign toks srclen diags previous before r s body s',
  lengths_fit toks -> Forall (fun t => tk_start t <= tk_end t) toks ->
  match previous with Some (old, _) => built old | None => True end ->
  (* whatever was parsed before *)
  keeps True ign 0 before (start ign toks srclen diags previous) ->
  interp ign before (start ign toks srclen diags previous) = Some (r, s) ->
  (* the speculative parse *)
  keeps True ign (length (ps_sink s)) body s ->
  interp ign (Attempt body (fun ok _ => Done ok)) s = Some (false, s') ->
  ps_index s' = ps_index s /\ ps_sink s' = ps_sink s /\ ps_toks s' = ps_toks s /\ ps_srclen s' = ps_srclen s /\
  exists new, ps_errs s' = ps_errs s ++ new.
Proof.
  intros ign toks srclen diags previous before r s body s' Hf Ho Hb K0 E0 K E.
  set (old := match previous with Some (old, _) => old | None => GLeaf 0 0 None end).
  assert (I0 : inv ign toks old True (start ign toks srclen diags previous)).
  { assert (G : good toks (~ True) (ps_new ign toks srclen diags)).
    { apply skip_good; [exact Hf|].
      split; [reflexivity|]. split; [cbn; lia|]. split; [constructor|]. split; [reflexivity | tauto]. }
    destruct previous as [[o es]|]; cbn [start].
    - split; [now apply inv_current|]. split; [intros _; split; [exact Hb | apply PRoot] | tauto].
    - split; [exact G|]. split; [|tauto]. intros _. split; [apply BLeaf|].
      unfold ps_new, skip_trivia. edestruct skip_loop_push as (l & _ & _ & _ & -> & _). exact I. }
  assert (I1 : inv ign toks old True s).
  { now destruct (interp_inv ign toks old True Hf ltac:(auto) before 0 _ r s I0 (Nat.le_0_l _) K0 E0). }
  cbn [interp] in E.
  destruct (interp ign body s) as [[ok s1]|] eqn:B; [|discriminate]. destruct ok; [discriminate|].
  destruct (interp_inv ign toks old True Hf ltac:(auto) body _ _ _ _ I1 (le_n _) K B) as [I2 B1].
  assert (Tk : ps_toks s1 = ps_toks s) by (destruct I2 as [(-> & _) _]; destruct I1 as [(-> & _) _]; reflexivity).
  injection E as <-. rewrite (restore_same _ _ B1 Tk). cbn. destruct B1 as (_ & _ & C & _). auto 10.
Qed.
Print Assumptions failed_attempt_restores_partial.

Theorem failed_attempt_keeps_diagnostics_refuted : exists toks body s',
  let s := ps_new blank toks (length toks) [] in
  keeps False blank (length (ps_sink s)) body s /\
  interp blank (Attempt body (fun ok _ => Done ok)) s = Some (false, s') /\ ps_errs s = [] /\ ps_errs s' <> [].
Proof.
  exists (lex_bytes (lit "x")), (Do (Expect 59) (fun ok _ => Done ok)). eexists. cbv zeta.
  split; [cbn [keeps]; auto|]. split; [vm_compute; reflexivity|]. split; [reflexivity|]. intros Hx; vm_compute in Hx; discriminate Hx.
Qed.
Print Assumptions failed_attempt_keeps_diagnostics_refuted.

(** Wrapping something older inside a speculative parse (what an infix operator does to its left operand)
    is not undone: the tree keeps both tokens although the position is back at the second. *)
Theorem failed_attempt_after_wrap_refuted : exists toks s s',
  interp blank (Do Bump (fun _ _ => Done true)) (ps_new blank toks (length toks) []) = Some (true, s) /\
  interp blank (Attempt (Do Bump (fun _ _ => Do (Finish 0 200) (fun _ _ => Done false))) (fun ok _ => Done ok)) s = Some (false, s') /\
  ps_index s' = ps_index s /\ in_tree s <> in_tree s' /\ ~ lossless toks s'.
Proof.
  exists (lex_bytes (lit "ab")). eexists. eexists. split; [vm_compute; reflexivity|].
  split; [vm_compute; reflexivity|]. split; [reflexivity|]. split; [vm_compute; discriminate|].
  intros (_ & _ & H). vm_compute in H. discriminate.
Qed.
Print Assumptions failed_attempt_after_wrap_refuted.

Example attempt_example :
  let toks := lex_bytes (lit "a b") in
  let before := Do Bump (fun _ _ => Done true) in
  let body := Do Bump (fun _ _ => Do (Eat 99) (fun ok _ => Done ok)) in
  exists s s', keeps True blank 0 before (start blank toks 3 [] None) /\
  interp blank before (start blank toks 3 [] None) = Some (true, s) /\ keeps True blank (length (ps_sink s)) body s /\
  interp blank (Attempt body (fun ok _ => Done ok)) s = Some (false, s') /\ length (ps_sink s') = 2.
Proof.
  cbv zeta. eexists. eexists. split; [cbn [keeps]; auto|]. split; [vm_compute; reflexivity|].
  split; [cbn [keeps]; auto|]. split; [vm_compute; reflexivity | reflexivity].
Qed.

(** ** C26 *)
Theorem reused_text_unchanged_partial : forall old_text es old kind s s' inc,
  Forall (edit_ok old_text) es -> compatible es ->
  built old -> width old = length old_text ->
  ps_inc s = Some inc -> ic_edits inc = ic_edits (inc_new old es) -> at_place old (ic_cursor inc) ->
  try_reuse kind s = Some (true, s') ->
  exists g off, sink_trees s' = sink_trees s ++ [g] /\ In (g, off) (elements old 0) /\
    text_at (simultaneous old_text es) (current_offset s) (width g) = text_at old_text off (width g).
Proof. exact reused_text. Qed.
Print Assumptions reused_text_unchanged_partial.

(** The tree of the standard root idiom starts after the leading trivia; its offsets are then not those of
    the text, and reparsing the same text without any edit puts another item in the place of the first. *)
Theorem reused_text_unchanged_refuted : exists text r1 d1 s1 r2 d2 s2,
  parse_with_lexer blank lex_bytes (document 2) text [] session_new = Some (Some r1, d1, s1) /\
  parse_with_lexer blank lex_bytes (document 2) text [] s1 = Some (Some r2, d2, s2) /\
  d1 = [] /\ d2 = [] /\
  yield r1 = [(97, 1); (32, 1); (98, 1); (32, 1)] /\ yield r2 = [(98, 1); (32, 1); (98, 1); (32, 1)].
Proof.
  exists (lit "  a b "). do 6 eexists.
  split; [vm_compute; reflexivity|]. split; [vm_compute; reflexivity|]. repeat split.
Qed.
Print Assumptions reused_text_unchanged_refuted.

Example reuse_example :
  let old_text := lit "a b c" in
  let es := [Edit 2 3 (lit "xx")] in
  let old := GNode 201 5 [GNode 200 2 [GLeaf 97 1 None; GLeaf 32 1 None]; GNode 200 2 [GLeaf 98 1 None; GLeaf 32 1 None]; GNode 200 1 [GLeaf 99 1 None]] in
  let s := set_inc (set_index (ps_new blank (lex_bytes (simultaneous old_text es)) 6 []) 5) (Some (inc_new old es)) in
  compatible es /\ simultaneous old_text es = lit "a xx c" /\ current_offset s = 5 /\
  option_map fst (try_reuse 200 s) = Some true.
Proof. cbv zeta. split; [repeat constructor|]. vm_compute. auto. Qed.

(** ** C27 *)
Theorem reuse_takes_whole_tokens_partial : forall old kind s s' e,
  old_ok old s -> tiles tok_span (current_offset s) (to_come s) e -> e = ps_srclen s -> try_reuse kind s = Some (true, s') ->
  exists g taken, sink_trees s' = sink_trees s ++ [g] /\ to_come s = taken ++ to_come s' /\ taken <> [] /\
    tiles tok_span (current_offset s) taken (current_offset s + width g) /\
    current_offset s' = current_offset s + width g.
Proof.
  intros old kind s s' e O T He H. destruct (try_reuse_spec _ _ _ _ _ O H) as [_ Hr].
  destruct Hr as (inc & c' & n & ch & off & m & Ei & In1 & Bg & M & D & V & ->).
  assert (Ho : Forall (fun t => tk_start t <= tk_end t) (to_come s)).
  { clear -T. induction T as [|a t l e H1 H2 H3 IH]; constructor; [cbn in *; lia | exact IH]. }
  destruct (verify_spec _ _ _ _ _ V Ho) as (m' & Em & Hm & Tm). cbn in Em. subst m'.
  exists (GNode kind n ch), (firstn m (to_come s)).
  assert (Hc : to_come (PState (ps_toks s) (ps_index s + m) (ps_sink s ++ [(Some (ps_next s), GNode kind n ch)]) (S (ps_next s))
             (ps_errs s) (ps_srclen s) (Some (Incremental c' (ic_edits inc)))) = skipn m (to_come s)).
  { unfold to_come. cbn. now rewrite skipn_skipn_add. }
  split; [unfold sink_trees; cbn; now rewrite map_app|].
  split; [rewrite Hc; symmetry; apply firstn_skipn|].
  split; [destruct (to_come s), m; cbn in *; try lia; discriminate|].
  rewrite <- (glen_width _ Bg). cbn [glen]. split; [exact Tm|].
  assert (Hcur : forall st, current_offset st = match to_come st with t :: _ => tk_start t | [] => ps_srclen st end).
  { intros st. unfold current_offset, to_come, ps_current.
    destruct (nth_error (ps_toks st) (ps_index st)) as [t|] eqn:E1; [now rewrite (skipn_nth _ _ _ E1)|].
    apply nth_error_None in E1. now rewrite skipn_all2. }
  rewrite Hcur, Hc. cbn [ps_srclen].
  rewrite <- (firstn_skipn m (to_come s)) in T.
  assert (T2 : forall a l1 l2 b c, tiles tok_span a (l1 ++ l2) b -> tiles tok_span a l1 c -> tiles tok_span c l2 b).
  { clear. intros a l1. revert a. induction l1 as [|x l1 IH]; intros a l2 b c H1 H2; inversion H2; subst; [exact H1|].
    cbn in H1. inversion H1; subst. eapply IH; eauto. }
  specialize (T2 _ _ _ _ _ T Tm). destruct (skipn m (to_come s)) as [|t r]; inversion T2; subst; cbn in *; congruence.
Qed.
Print Assumptions reuse_takes_whole_tokens_partial.

(** After reuse the next token can be trivia, and then the rest of the grammar does not recognise it. *)
Definition two_items : code :=
  incremental_node 200 (Do (Expect 97) (fun ok _ => Done ok)).
Definition then_b : code :=
  looking (fun s => bind two_items (fun _ => Do (Expect 98) (fun ok _ =>
    Do (Finish (length (ps_sink s)) 201) (fun _ _ => Done true)))).

Theorem reuse_leaves_trivia_refuted : exists toks old es s',
  let s := set_inc (ps_new blank toks (length toks) []) (Some (inc_new old es)) in
  old_ok old s /\ settled blank s /\ try_reuse 200 s = Some (true, s') /\ ~ settled blank s'.
Proof.
  exists (lex_bytes (lit "a  b")), (GNode 201 3 [GNode 200 2 [GLeaf 97 1 None; GLeaf 32 1 None]; GLeaf 98 1 None]),
    [Edit 2 2 (lit " ")]. eexists. cbv zeta. split; [|split; [vm_compute; reflexivity|split; [vm_compute; reflexivity|]]].
  - split; [|apply PRoot].
    apply (BNode 201 [GNode 200 2 [GLeaf 97 1 None; GLeaf 32 1 None]; GLeaf 98 1 None]); [|reflexivity].
    repeat constructor. apply (BNode 200 [GLeaf 97 1 None; GLeaf 32 1 None]); [repeat constructor | reflexivity].
  - intros Hx; vm_compute in Hx; discriminate Hx.
Qed.
Print Assumptions reuse_leaves_trivia_refuted.

(** ** C75 *)
Theorem incremental_equals_full_refuted : exists text1 es text2 r1 s1 r2 d2 s2 r3 d3 s3,
  parse_with_lexer blank lex_bytes then_b text1 [] session_new = Some (Some r1, [], s1) /\
  text2 = simultaneous text1 es /\ Forall (edit_ok text1) es /\ compatible es /\
  parse_with_lexer blank lex_bytes then_b text2 es s1 = Some (r2, d2, s2) /\
  parse_with_lexer blank lex_bytes then_b text2 [] session_new = Some (r3, d3, s3) /\
  d3 = [] /\ d2 <> [] /\ r2 <> r3.
Proof.
  exists (lit "a b"), [Edit 2 2 (lit " ")], (lit "a  b"). do 8 eexists.
  split; [vm_compute; reflexivity|]. split; [reflexivity|]. split.
  { constructor; [|constructor]. repeat split; cbn; try lia; try reflexivity. apply validb_valid. reflexivity. }
  split; [repeat constructor|]. split; [vm_compute; reflexivity|]. split; [vm_compute; reflexivity|].
  split; [reflexivity|]. split; discriminate.
Qed.
Print Assumptions incremental_equals_full_refuted.

(** ** C28 *)
Theorem one_pass_ignores_history_refuted : exists text1 text2 r1 d1 s1 r2 d2 s2 r3 d3 s3,
  parse_one_pass blank lex_bytes (document 1) text1 session_new = Some (Some r1, d1, s1) /\
  parse_one_pass blank lex_bytes (document 1) text2 s1 = Some (Some r2, d2, s2) /\
  parse_one_pass blank lex_bytes (document 1) text2 session_new = Some (Some r3, d3, s3) /\
  r2 <> r3 /\ r2 = r1 /\ yield r3 = map tok_yield (lex_bytes text2).
Proof.
  exists (lit "a"), (lit "b"). do 9 eexists. split; [vm_compute; reflexivity|].
  split; [vm_compute; reflexivity|]. split; [vm_compute; reflexivity|]. split; [discriminate|]. split; reflexivity.
Qed.
Print Assumptions one_pass_ignores_history_refuted.

(** As long as no earlier parse succeeded, history does not matter. *)
Theorem one_pass_ignores_history_partial : forall ign lex parser text se,
  se_root se = None ->
  option_map fst (parse_one_pass ign lex parser text se) = option_map fst (parse_one_pass ign lex parser text session_new).
Proof.
  intros ign lex parser text se H. unfold parse_one_pass, parse_with_lexer, old_tree, prepare_generation. cbn [se_root se_old].
  rewrite H. cbn [session_new se_root].
  destruct (interp ign parser (ps_new ign (lex text) (length text) [])) as [[ok st]|]; reflexivity.
Qed.
Print Assumptions one_pass_ignores_history_partial.

(** ** C29 *)
(** A history of parses, true for success; each runs prepare and, on success, commits. *)
Fixpoint history (h : list bool) (root : green) (se : session) : session :=
  match h with
  | [] => se
  | ok :: r => let se := prepare_generation se in
               history r root (if ok then commit_generation se root else se)
  end.

Definition alive_at_next (se : session) : Prop :=
  match old_tree (prepare_generation se) with
  | None => True
  | Some (arena, _) => owns (prepare_generation se) arena = true
  end.

Lemma history_app : forall a b root se, history (a ++ b) root se = history b root (history a root se).
Proof. induction a as [|x a IH]; intros b root se; [reflexivity|]. cbn. apply IH. Qed.

Lemma history_inv : forall h root se, se_active se < se_fresh se ->
  match se_root se with Some (g, _) => g <= se_active se | None => True end ->
  let se' := history h root se in
  se_active se' < se_fresh se' /\ se_active se <= se_active se' /\
  match se_root se' with Some (g, _) => g <= se_active se' | None => True end /\
  (se_root se' = None <-> (se_root se = None /\ Forall (fun b => b = false) h)).
Proof.
  induction h as [|ok h IH]; intros root se H1 H2; cbv zeta.
  - cbn. split; [exact H1|]. split; [lia|]. split; [exact H2|]. intuition.
  - cbn [history]. destruct ok.
    + destruct (IH root (commit_generation (prepare_generation se) root)) as (A & B & C & D); [cbn; lia | cbn; lia |].
      cbv zeta in *. cbn in B. split; [exact A|]. split; [lia|]. split; [exact C|]. rewrite D. cbn. split; [intros [X _]; discriminate|].
      intros [_ F]. inversion F. discriminate.
    + destruct (IH root (prepare_generation se)) as (A & B & C & D); [cbn; lia | cbn; destruct (se_root se) as [[g t]|]; [lia | exact I] |].
      cbv zeta in *. cbn in B. split; [exact A|]. split; [lia|]. split; [exact C|]. rewrite D. cbn. split; intros [X Y].
      * split; [exact X|]. now constructor.
      * split; [exact X|]. now inversion Y.
Qed.

(** The old tree a session hands out at the next parse is alive exactly if the last parse succeeded or none ever did. *)
Theorem old_tree_alive_partial : forall h last root,
  alive_at_next (history (h ++ [last]) root session_new) <-> (last = true \/ Forall (fun b => b = false) (h ++ [last])).
Proof.
  intros h last root. rewrite history_app.
  destruct (history_inv h root session_new) as (A & B & C & D); [cbn; lia | exact I |]. cbv zeta in *.
  set (se := history h root session_new) in *. destruct last; cbn [history].
  - split; [auto|]. intros _. unfold alive_at_next, old_tree, owns. cbn. rewrite Nat.eqb_refl. apply orb_true_r.
  - unfold alive_at_next, old_tree, owns. cbn.
    destruct (se_root se) as [[g t]|] eqn:E.
    + split.
      * intros H. apply orb_true_iff in H. rewrite !Nat.eqb_eq in H. lia.
      * intros [H|H]; [discriminate|]. apply Forall_app in H. destruct H as [H _].
        assert (X : Some (g, t) = None) by (apply D; auto). discriminate X.
    + split; [|auto]. intros _. right. apply Forall_app. split; [now apply D | auto].
Qed.
Print Assumptions old_tree_alive_partial.

Theorem old_tree_alive_refuted : exists h root arena,
  let se := prepare_generation (history h root session_new) in
  old_tree se = Some (arena, root) /\ owns se arena = false.
Proof. exists [true; false], (GNode 0 0 []), 1. split; reflexivity. Qed.
Print Assumptions old_tree_alive_refuted.

(** ** C30 *)
Theorem pratt_correct_partial : forall ign table atom ek toks srclen diags operands rest,
  lengths_fit toks -> total_fits toks -> below_max table ->
  let s := ps_new ign toks srclen diags in
  kinds_to_come ign s = operands ++ rest -> alternating table operands ->
  (rest = [] \/ exists k r, rest = k :: r /\ table k = None) ->
  exists e, (reading e = operands /\ grouped table e) /\
    (forall e', reading e' = operands -> grouped table e' -> e' = e) /\
    exists N g id s', (forall fuel, N <= fuel -> pratt ign table atom ek fuel None 0 s = Some ((Some id, g), s')) /\
      denotes ign atom ek g e /\ kinds_to_come ign s' = rest /\
      ps_sink s' = ps_sink s ++ [(Some id, g)] /\ ps_errs s' = ps_errs s.
Proof.
  intros ign table atom ek toks srclen diags operands rest Hf Ht Hm s K A R.
  assert (O : good toks False s /\ settled ign s).
  { split; [|apply skip_settled]. apply skip_good; [exact Hf|].
    split; [reflexivity|]. split; [cbn; lia|]. split; [constructor|]. split; [reflexivity | tauto]. }
  destruct (pratt_parses ign table atom ek toks Hf Ht Hm operands rest s O K A) as (e & E1 & E2 & E3 & N & g & id & s' & P & D & K' & Sk & O' & Er).
  { destruct R as [->|R]; auto. }
  exists e. split; [auto|]. split; [intros e' X Y; apply (grouped_unique table); congruence || assumption|].
  exists N, g, id, s'. auto 10.
Qed.
Print Assumptions pratt_correct_partial.

(** + is 43 (left, 1), * is 42 (left, 2), ^ is 94 (right, 3), = is 61 (non-associative, 0) *)
Definition arith (k : nat) : option (nat * assoc) :=
  match k with 43 => Some (1, ALeft) | 42 => Some (2, ALeft) | 94 => Some (3, ARight) | 61 => Some (0, ANone) | _ => None end.

Definition parse_arith (text : str) : option green :=
  option_map (fun r => snd (fst r)) (pratt blank arith 200 201 50 None 0 (ps_new blank (lex_bytes text) (length text) [])).

Example pratt_example :
  let s := ps_new blank (lex_bytes (lit "a + b*c^d^e + f)")) 16 [] in
  kinds_to_come blank s = reading (Bin 43 (Bin 43 (Atom 97) (Bin 42 (Atom 98) (Bin 94 (Atom 99) (Bin 94 (Atom 100) (Atom 101))))) (Atom 102)) ++ [41] /\
  below_max arith /\ grouped arith (Bin 43 (Bin 43 (Atom 97) (Bin 42 (Atom 98) (Bin 94 (Atom 99) (Bin 94 (Atom 100) (Atom 101))))) (Atom 102)) /\
  parse_arith (lit "a*b+c") = Some (GNode 201 5 [GNode 201 3 [GNode 200 1 [GLeaf 97 1 None]; GLeaf 42 1 None; GNode 200 1 [GLeaf 98 1 None]]; GLeaf 43 1 None; GNode 200 1 [GLeaf 99 1 None]]).
Proof.
  cbv zeta. split; [vm_compute; reflexivity|]. split.
  - intros o p a H. unfold arith in H. do 95 (destruct o as [|o]; [try discriminate; injection H as <- <-; auto; right; lia|]). discriminate.
  - split; [|vm_compute; reflexivity]. cbn. unfold prec, right_assoc. cbn. intuition lia.
Qed.

(** The precedence of a left-associative operator is incremented in eight bits. *)
Theorem pratt_any_table_refuted : exists toks table,
  (forall o p a, table o = Some (p, a) -> p <= 255) /\
  kinds_to_come blank (ps_new blank toks (length toks) []) = reading (Bin 43 (Atom 97) (Atom 98)) /\
  forall fuel, pratt blank table 200 201 fuel None 0 (ps_new blank toks (length toks) []) = None.
Proof.
  exists (lex_bytes (lit "a+b")), (fun k => if k =? 43 then Some (255, ALeft) else None). split.
  - intros o p a H. destruct (o =? 43); [injection H as <- <-; lia | discriminate].
  - split; [vm_compute; reflexivity|]. intros [|[|fuel]]; try reflexivity.
Qed.
Print Assumptions pratt_any_table_refuted.

(** ** C31 *)
Theorem nonassociative_chain_refuted : exists text g,
  parse_arith text = Some g /\ arith 61 = Some (0, ANone) /\
  denotes blank 200 201 g (Bin 61 (Bin 61 (Atom 97) (Atom 98)) (Atom 99)).
Proof.
  exists (lit "a=b=c"). eexists. split; [vm_compute; reflexivity|]. split; [reflexivity|].
  eapply DBin; [reflexivity | eapply DBin; [reflexivity | |] |]; eapply DAtom; reflexivity.
Qed.
Print Assumptions nonassociative_chain_refuted.

Theorem nonassociative_is_left_associative : forall ign table atom ek fuel left min s,
  pratt ign table atom ek fuel left min s = pratt ign (as_left table) atom ek fuel left min s.
Proof. exact none_is_left. Qed.
Print Assumptions nonassociative_is_left_associative.

(** ** C32 *)
(** Provenance of the leaves, looked up in the metadata table of the arena the tree lives in (arena.rs:98-108:
    handles are positions counted from one, zero means none). *)
Definition stored (table : list nat) (handle : nat) : option nat :=
  match handle with O => None | S i => nth_error table i end.
Fixpoint provenance (table : list nat) (t : green) : list (option nat) :=
  match t with
  | GLeaf _ _ m => [match m with Some h => stored table h | None => None end]
  | GNode _ _ ch => flat_map (provenance table) ch
  end.

Theorem deep_copy_preserves_partial : forall t, built t ->
  exists c, deep_clone t = Some c /\ c = t /\ (forall table, provenance table c = provenance table t).
Proof. intros t H. exists t. split; [now apply deep_clone_built|]. auto. Qed.
Print Assumptions deep_copy_preserves_partial.

Theorem deep_copy_provenance_refuted : exists t c old_arena new_arena,
  built t /\ deep_clone t = Some c /\ provenance old_arena t = [Some 7] /\
  (* the new arena already holds its own entry *) provenance new_arena c = [Some 9] /\
  (* or none at all *) provenance [] c = [None].
Proof.
  exists (GNode 0 1 [GLeaf 1 1 (Some 1)]), (GNode 0 1 [GLeaf 1 1 (Some 1)]), [7], [9].
  split; [apply (BNode 0 [GLeaf 1 1 (Some 1)]); [repeat constructor | reflexivity]|]. repeat split.
Qed.
Print Assumptions deep_copy_provenance_refuted.

Example deep_copy_example : deep_clone (GNode 0 3 [GNode 1 2 [GLeaf 2 2 None]; GLeaf 3 1 (Some 4)])
  = Some (GNode 0 3 [GNode 1 2 [GLeaf 2 2 None]; GLeaf 3 1 (Some 4)]).
Proof. reflexivity. Qed.

(** ** C76 *)
Theorem lookahead_agrees_with_consuming : forall ign n s, lengths_fit (ps_toks s) -> settled ign s ->
  peek_non_trivia_at ign s n = ps_current (Nat.iter n (bump ign) s).
Proof. intros. now apply peek_bump. Qed.
Print Assumptions lookahead_agrees_with_consuming.

Example lookahead_example :
  let s := ps_new blank (lex_bytes (lit "a  b c")) 6 [] in
  settled blank s /\ option_map tk_kind (peek_non_trivia_at blank s 2) = Some 99.
Proof. vm_compute. auto. Qed.
