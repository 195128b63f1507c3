(** Incremental parsing gives the tree and the diagnostics of parsing from scratch, for grammars whose rules are closed
    by their last token. *)
From Verif Require Import Base Utf8 Utf8Facts EditModel EditSpec EditProofs LexModel TreeModel TreeSpec TreeProofs ParserModel ParserSpec ParserProofs GramModel GramSpec GramProofs.

Lemma ps_new_unpadded ign toks n d : unpadded ign toks -> ps_new ign toks n d = PState toks 0 [] 0 d n None.
Proof.
  intros U. unfold ps_new, skip_trivia. cbn [ps_toks ps_index]. destruct toks as [|t toks]; [reflexivity|]. cbn [length Nat.sub skip_trivia_loop ps_current nth_error ps_toks ps_index]. unfold ps_current. cbn. cbn in U. now rewrite U.
Qed.
Lemma ps_new_ready ign toks n d : lengths_fit toks -> ready ign (ps_new ign toks n d) /\ ps_toks (ps_new ign toks n d) = toks /\ ps_inc (ps_new ign toks n d) = None /\ ps_srclen (ps_new ign toks n d) = n /\ ps_errs (ps_new ign toks n d) = d.
Proof.
  intros F. unfold ps_new, skip_trivia. cbn [ps_toks ps_index]. destruct (skip_run ign (fun _ => GEmpty) (length toks - 0) (PState toks 0 [] 0 d n None) F) as (seg & _ & _ & _ & R); [reflexivity | apply Nat.le_0_l|].
  destruct (skip_loop_push ign (length toks - 0) (PState toks 0 [] 0 d n None)) as (l & _ & E & L & I & T & _). auto.
Qed.

Lemma gram_root_run ign body fuel start root s : interp ign (gram_root body fuel start root) s =
  match interp ign (compile body fuel start) s with None => None | Some (ok, s') => interp ign (Do (Finish (length (ps_sink s)) root) (fun _ _ => Done ok)) s' end.
Proof. unfold gram_root, peeking. cbn [interp]. apply interp_bind. Qed.

Lemma incremental_root ign eof lex body fuel start root text1 es r1 x se r3 d3 x3 :
  local_lexer ign eof lex -> self_contained body eof -> avoids root start = true -> (forall k, avoids root (body k) = true) ->
  unpadded ign (lex text1) ->
  parse_with_lexer ign lex (gram_root body fuel start root) text1 [] session_new = Some (Some r1, [], x) ->
  (exists a, se_root se = Some (a, r1)) ->
  Forall (edit_ok text1) es -> compatible es -> calm ign (lex (simultaneous text1 es)) es ->
  parse_with_lexer ign lex (gram_root body fuel start root) (simultaneous text1 es) [] session_new = Some (r3, d3, x3) ->
  exists s2, parse_with_lexer ign lex (gram_root body fuel start root) (simultaneous text1 es) es se = Some (r3, d3, s2) /\
    (forall r, r3 = Some r -> exists a, se_root s2 = Some (a, r)).
Proof.
  intros LL SC As Ab U P1 [a0 Sr] Ok Cp Ca P3. set (text2 := simultaneous text1 es) in *.
  (* the old tree *)
  unfold parse_with_lexer at 1, old_tree, prepare_generation in P1. cbn [se_root se_old session_new] in P1. rewrite (ps_new_unpadded _ _ _ _ U) in P1.
  set (s0 := PState (lex text1) 0 [] 0 [] (length text1) None) in *. rewrite gram_root_run in P1.
  destruct (interp ign (compile body fuel start) s0) as [[ok1 f1]|] eqn:X1; [|discriminate].
  assert (F0 : lengths_fit (ps_toks s0)) by (apply (ll_fit _ _ _ _ LL); exact Logic.I).
  assert (R0 : ready ign s0). { split; [|apply Nat.le_0_l]. unfold rem, to_come. cbn. unfold unpadded in U. destruct (lex text1); [exact I | exact U]. }
  destruct (run_ok ign body _ _ _ _ _ F0 eq_refl R0 X1) as ((G1 & _ & _ & G2) & new & e & Sn & En & Y).
  destruct (interp ign (Do (Finish (length (ps_sink s0)) root) (fun _ _ => Done ok1)) f1) as [[ok2 f2]|] eqn:X2; [|discriminate].
  destruct (finish_run ign body s0 f1 new _ root ok1 _ eq_refl Sn X2) as (g & Ng & E). injection E as -> ->.
  cbn [ps_errs] in P1. destruct ok1; [|discriminate]. unfold last_node in P1. cbn in P1. injection P1 as -> Ee _.
  rewrite En in Ee. cbn [ps_errs s0 app] in Ee. destruct (Y Ee) as [_ Y1].
  (* the new tree *)
  unfold parse_with_lexer at 1, old_tree, prepare_generation in P3. cbn [se_root se_old session_new] in P3.
  set (sf := ps_new ign (lex text2) (length text2) []) in *.
  destruct (ps_new_ready ign (lex text2) (length text2) [] (ll_fit _ _ _ _ LL text2 Logic.I)) as (Rf & Tf & If & Lf & Ef). fold sf in Rf, Tf, If, Lf, Ef.
  rewrite gram_root_run in P3. destruct (interp ign (compile body fuel start) sf) as [[ok f3]|] eqn:X3; [|discriminate].
  unfold parse_with_lexer, old_tree, prepare_generation. cbn [se_root se_old]. rewrite Sr. fold sf.
  set (si := set_inc sf (Some (inc_new r1 es))).
  assert (Si : sim lex text2 es r1 sf si).
  { repeat split; try assumption. exists (tc_new r1). split; [reflexivity | constructor]. }
  destruct (simulate ign eof lex body root text1 text2 es r1 (map snd new) start (rem f1) (fun _ => True) LL Logic.I Logic.I SC Ab Ok Cp eq_refl Ca Ng Y1 (proj1 G2) fuel start sf si ok f3 Si Rf As X3) as (i3 & Xi & S3 & R3).
  rewrite gram_root_run, Xi. change (ps_sink si) with (ps_sink sf).
  cbn [interp exec] in *. destruct (finish_at f3 (0, length (ps_sink sf)) root) as [[itf f4]|] eqn:Fi; [|discriminate].
  destruct (finish_sim lex text2 es r1 _ _ _ _ _ _ S3 Fi) as (n & i4 & -> & S4 & La & Lb). 
  assert (E4 : ps_errs i4 = ps_errs f4) by apply S4. rewrite La, E4. rewrite Lb in P3.
  destruct ok; injection P3 as <- <- _; eexists; (split; [reflexivity|]); intros r Er; [|discriminate]. injection Er as <-. now eexists.
Qed.

(** ** C75 *)
Theorem incremental_equals_full_partial : forall ign eof lex body fuel start root text1 es text2 r1 s1 r3 d3 s3,
  local_lexer ign eof lex -> self_contained body eof -> avoids root start = true -> (forall k, avoids root (body k) = true) ->
  unpadded ign (lex text1) ->
  parse_with_lexer ign lex (gram_root body fuel start root) text1 [] session_new = Some (Some r1, [], s1) ->
  Forall (edit_ok text1) es -> compatible es -> text2 = simultaneous text1 es -> calm ign (lex text2) es ->
  parse_with_lexer ign lex (gram_root body fuel start root) text2 [] session_new = Some (r3, d3, s3) ->
  exists s2, parse_with_lexer ign lex (gram_root body fuel start root) text2 es s1 = Some (r3, d3, s2).
Proof.
  intros ign eof lex body fuel start root text1 es text2 r1 s1 r3 d3 s3 LL SC As Ab U P1 Ok Cp -> Ca P3.
  destruct (incremental_root ign eof lex body fuel start root text1 es r1 s1 s1 r3 d3 s3 LL SC As Ab U P1) as (s2 & H & _); try assumption; [|now exists s2].
  unfold parse_with_lexer, old_tree, prepare_generation in P1. cbn [se_root se_old session_new] in P1.
  destruct (interp ign (gram_root body fuel start root) (ps_new ign (lex text1) (length text1) [])) as [[ok st]|]; [|discriminate].
  destruct ok; [|discriminate]. destruct (last_node st); [|discriminate]. injection P1 as -> _ <-. now eexists.
Qed.
Print Assumptions incremental_equals_full_partial.

(** The same after any number of edits in one session. *)
Theorem incremental_history_partial : forall ign eof lex body fuel start root history text es r1 s1 r3 d3 s3,
  local_lexer ign eof lex -> self_contained body eof -> avoids root start = true -> (forall k, avoids root (body k) = true) ->
  let parser := gram_root body fuel start root in
  fair ign lex parser text (history ++ [es]) ->
  parse_with_lexer ign lex parser text [] session_new = Some (Some r1, [], s1) ->
  let text' := fold_left simultaneous (history ++ [es]) text in
  parse_with_lexer ign lex parser text' [] session_new = Some (r3, d3, s3) ->
  exists text1 se s2, keep_parsing ign lex parser text s1 history = Some (text1, se) /\ text' = simultaneous text1 es /\
    parse_with_lexer ign lex parser text' es se = Some (r3, d3, s2).
Proof.
  intros ign eof lex body fuel start root history text es r1 s1 r3 d3 s3 LL SC As Ab parser Fa P1.
  assert (S1 : exists a, se_root s1 = Some (a, r1)).
  { unfold parse_with_lexer, old_tree, prepare_generation in P1. cbn [se_root se_old session_new] in P1.
    destruct (interp ign parser (ps_new ign (lex text) (length text) [])) as [[ok st]|]; [|discriminate].
    destruct ok; [|discriminate]. destruct (last_node st); [|discriminate]. injection P1 as -> _ <-. now eexists. }
  assert (P1' : exists x, parse_with_lexer ign lex parser text [] session_new = Some (Some r1, [], x)) by now exists s1. clear P1.
  revert text r1 s1 Fa S1 P1'. induction history as [|e h IH]; intros text r1 s1 Fa S1 [x P1] text' P3.
  - cbn [app fair] in Fa. destruct Fa as (U & _ & Ok & Cp & Ca & _). cbn in text'. subst text'.
    destruct (incremental_root ign eof lex body fuel start root text es r1 x s1 r3 d3 s3 LL SC As Ab U P1 S1 Ok Cp Ca P3) as (s2 & H & _).
    exists text, s1, s2. now repeat split.
  - cbn [app fair] in Fa. destruct Fa as (U & _ & Ok & Cp & Ca & Fa). cbn [app fold_left] in text'.
    assert (Q : exists r2 x2, parse_with_lexer ign lex parser (simultaneous text e) [] session_new = Some (Some r2, [], x2)).
    { destruct h as [|e' h]; cbn [app fair] in Fa; destruct Fa as (_ & Q & _); exact Q. }
    destruct Q as (r2 & x2 & Q).
    destruct (incremental_root ign eof lex body fuel start root text e r1 x s1 (Some r2) [] x2 LL SC As Ab U P1 S1 Ok Cp Ca Q) as (s2 & H & H2).
    cbn [keep_parsing]. fold parser in H. rewrite H. apply (IH (simultaneous text e) r2 s2 Fa (H2 r2 eq_refl) (ex_intro _ x2 Q)). exact P3.
Qed.
Print Assumptions incremental_history_partial.

(** ** Example: nested lists of [a] in parentheses, one byte per token, blanks are trivia, then an end token. *)
Definition lex_list (text : str) : list token :=
  (fix go off text := match text with [] => [Token 0 off off] | b :: r => Token (S (Z.to_nat b)) off (S off) :: go (S off) r end) 0 text.
Definition blank1 (k : nat) : bool := k =? 33.
Definition is_kind (k : nat) (o : option nat) : bool := match o with Some k' => k' =? k | None => false end.
Definition list_body (_ : nat) : gram :=
  GSeq (GTok 41) (GSeq (GWhile (fun o => is_kind 41 o || is_kind 98 o) (GIf (is_kind 41) (GRule 300) (GTok 98))) (GTok 42)).
Definition list_start : gram := GSeq (GWhile (is_kind 41) (GRule 300)) (GTok 0).

Fixpoint bytes_from (off : nat) (text : str) : list token :=
  match text with [] => [Token 0 off off] | b :: r => Token (S (Z.to_nat b)) off (S off) :: bytes_from (S off) r end.
Lemma bytes_in : forall text off a t b, bytes_from off text = a ++ t :: b ->
  (b = [] /\ t = Token 0 (off + length text) (off + length text)) \/
  (off <= tk_start t < off + length text /\ tk_end t = S (tk_start t) /\ tk_kind t = S (Z.to_nat (nth (tk_start t - off) text 0%Z))).
Proof.
  induction text as [|c r IH]; intros off a t b H; cbn [bytes_from] in H.
  - destruct a as [|x [|]]; try discriminate. injection H as <- <-. left. split; [reflexivity|]. cbn. f_equal; lia.
  - destruct a as [|x a]; injection H as E H.
    + subst t. right. cbn. rewrite Nat.sub_diag. repeat split; lia.
    + destruct (IH _ _ _ _ H) as [[-> ->]|(A & B & C)]; [left; split; [reflexivity | cbn; f_equal; lia]|]. right. cbn [length]. split; [lia|]. split; [exact B|]. rewrite C. replace (tk_start t - off) with (S (tk_start t - S off)) by lia. reflexivity.
Qed.

Lemma bytes_cut text : forall m s n, tiles tok_span s m (s + n) -> Forall (fun t => tk_start t < tk_end t) m -> (forall t, In t m -> In t (bytes_from 0 text)) -> s + n <= length text ->
  map tok_yield m = map (fun b => (S (Z.to_nat b), 1)) (text_at text s n).
Proof.
  induction m as [|t m IH]; intros s n H F I L.
  - inversion H; subst. assert (n = 0) by lia. subst n. reflexivity.
  - inversion H as [|? ? ? ? A B C]; subst. inversion F as [|? ? Ft Fm]; subst. cbn [tok_span fst snd] in *.
    pose proof (I t (or_introl eq_refl)) as J. apply in_split in J. destruct J as (u & v & J). destruct (bytes_in _ _ _ _ _ J) as [[_ ->]|(D & E & K)]; [cbn in Ft; lia|].
    rewrite Nat.sub_0_r in K. destruct (tiles_sum _ _ _ C) as [_ Le]. rewrite E in *.
    destruct n as [|n]; [lia|]. cbn [map]. replace (tk_start t + S n) with (S (tk_start t) + n) in C by lia. rewrite (IH _ _ C Fm) by (try lia; intros; apply I; now right).
    unfold text_at. assert (Q : skipn (tk_start t) text = nth (tk_start t) text 0%Z :: skipn (S (tk_start t)) text).
    { apply skipn_nth. apply nth_error_nth'. lia. }
    rewrite Q. cbn [firstn map]. f_equal. unfold tok_yield. rewrite K, E. f_equal. lia.
Qed.

Lemma list_local : local_lexer blank1 0 lex_list.
Proof.
  assert (T : forall text off, tiles tok_span off (bytes_from off text) (off + length text)).
  { induction text as [|b r IH]; intros off; cbn [bytes_from length]; [rewrite Nat.add_0_r; constructor; [reflexivity | cbn; lia | constructor]|].
    constructor; [reflexivity | cbn; lia|]. cbn [tok_span snd tk_end]. replace (off + S (length r)) with (S off + length r) by lia. apply IH. }
  change lex_list with (bytes_from 0). split.
  - intros text _. apply (T text 0).
  - intros text _. apply Forall_forall. intros t I. apply in_split in I. destruct I as (a & b & I). destruct (bytes_in _ _ _ _ _ I) as [[_ ->]|(_ & E & _)]; [cbn; rewrite Nat.sub_diag; lia | rewrite E; replace (S (tk_start t) - tk_start t) with 1 by lia; lia].
  - intros text a t b _ E Z. destruct (bytes_in _ _ _ _ _ E) as [[-> ->]|(_ & E' & _)]; [now split | lia].
  - reflexivity.
  - intros text t _ I K. apply in_split in I. destruct I as (a & b & I). destruct (bytes_in _ _ _ _ _ I) as [[_ ->]|(_ & _ & E)]; [reflexivity | congruence].
  - exists (fun z => blank1 (S (Z.to_nat z))). intros text t _ I L. apply in_split in I. destruct I as (a & b & I). destruct (bytes_in _ _ _ _ _ I) as [[_ ->]|(_ & _ & E)]; [cbn in L; lia|]. now rewrite E, Nat.sub_0_r.
  - intros text a m b text' a' m' b' s s' n _ _ E E' H H' F F' Q.
    assert (B : forall t a m b s, bytes_from 0 t = a ++ m ++ b -> tiles tok_span s m (s + n) -> Forall (fun t => tk_start t < tk_end t) m -> m = [] \/ s + n <= length t).
    { clear - T. intros t a m b s E H F. pose proof (T t 0) as X. rewrite E in X. apply tiles_split in X. destruct X as (x & X1 & X2). apply tiles_split in X2. destruct X2 as (y & X2 & X3).
      destruct m as [|t0 m]; [now left|]. right. assert (x = s) by (inversion X2; inversion H; subst; congruence). subst x. destruct (tiles_sum _ _ _ X2) as [Y1 _]. destruct (tiles_sum _ _ _ H) as [Y2 _]. destruct (tiles_sum _ _ _ X3) as [_ Y3]. cbn in Y3. lia. }
    assert (Z : forall m s, tiles tok_span s m (s + n) -> m = [] -> n = 0) by (intros ? ? Hz ->; inversion Hz; lia).
    assert (Z' : forall m s, n = 0 -> tiles tok_span s m (s + n) -> Forall (fun t => tk_start t < tk_end t) m -> m = []).
    { intros m0 s0 -> Hz Fz. destruct m0 as [|t m0]; [reflexivity|]. inversion Hz as [|? ? ? ? A C D]; subst. inversion Fz; subst. destruct (tiles_sum _ _ _ D) as [_ Le]. cbn in *. lia. }
    destruct (B _ _ _ _ _ E H F) as [N|L1].
    + pose proof (Z _ _ H N) as N0. now rewrite N, (Z' _ _ N0 H' F').
    + destruct (B _ _ _ _ _ E' H' F') as [N|L2]; [pose proof (Z _ _ H' N) as N0; now rewrite N, (Z' _ _ N0 H F)|].
      rewrite (bytes_cut text m s n H F), (bytes_cut text' m' s' n H' F'); try assumption; [now rewrite Q | |]; intros t I; [rewrite E' | rewrite E]; rewrite !in_app_iff; auto.
Qed.

Example list_grammar : self_contained list_body 0 /\ avoids 301 list_start = true /\ forall k, avoids 301 (list_body k) = true.
Proof. repeat split. Qed.

(** The first list and the list in the middle are taken over (see [list_reused]). *)
Example list_edited :
  let parser := gram_root list_body 40 list_start 301 in
  let text := lit "((a))(a ((a)) a)" in let es := [Edit 6 7 (lit "a ()")] in
  unpadded blank1 (lex_list text) /\ Forall (edit_ok text) es /\ compatible es /\ calm blank1 (lex_list (simultaneous text es)) es /\
  (exists r1 s1, parse_with_lexer blank1 lex_list parser text [] session_new = Some (Some r1, [], s1) /\
     exists r3 s3, parse_with_lexer blank1 lex_list parser (simultaneous text es) [] session_new = Some (Some r3, [], s3) /\ r3 <> r1) /\
  exists r3 d3 s3, parse_with_lexer blank1 lex_list parser (lit "(a)(a") [] session_new = Some (r3, d3, s3) /\ d3 <> [].
Proof.
  cbv zeta. split; [reflexivity|]. split. { constructor; [|constructor]. repeat split; cbn; try lia; try reflexivity. apply validb_valid. reflexivity. }
  split; [repeat constructor|]. split.
  { intros t I G. vm_compute in I. cbn. intros [E|[]]. repeat (destruct I as [<-|I]; [vm_compute in G; try discriminate G; vm_compute in E; discriminate E|]). destruct I. }
  split; [do 2 eexists; split; [vm_compute; reflexivity|]; do 2 eexists; split; [vm_compute; reflexivity | discriminate]|].
  do 3 eexists. split; [vm_compute; reflexivity | discriminate].
Qed.

Example list_reused :
  let parser := gram_root list_body 40 list_start 301 in
  let text := lit "((a))(a ((a)) a)" in let es := [Edit 6 7 (lit "a ()")] in
  let new := ps_new blank1 (lex_list (simultaneous text es)) 20 [] in
  exists r1 s1 s2 s3, parse_with_lexer blank1 lex_list parser text [] session_new = Some (Some r1, [], s1) /\
    interp blank1 parser (set_inc new (Some (inc_new r1 es))) = Some (true, s2) /\ ps_next s2 = 5 /\
    interp blank1 parser new = Some (true, s3) /\ ps_next s3 = 7.
Proof. cbv zeta. do 4 eexists. split; [vm_compute; reflexivity|]. split; [vm_compute; reflexivity|]. split; [reflexivity|]. split; [vm_compute; reflexivity | reflexivity]. Qed.
