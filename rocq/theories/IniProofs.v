(** The INI lexer and parser on every text. *)
From Verif Require Import Base Utf8 Utf8Facts RopeModel SimdModel CursorModel LexModel TreeModel TreeSpec ParserModel ParserSpec VfsModel JsonLangSpec LangSpec LangModel LangParseProofs FlatProofs IniModel.

Section Rules.
  Variable text : str.
  Notation src := (flat_source text).
  Notation len := (length text).
  Notation fl := (fl text).
  Definition not_eof (k : nat) : Prop := k <> IEof.
  Notation rule_ok := (rule_ok text not_eof).

  Ltac cur off toks x E :=
    let H := fresh in destruct (fl_current text off toks ltac:(lia)) as (x & E & H); rewrite E;
    destruct x as [x|]; [assert (off < length text) by (destruct (Nat.eq_dec off (length text)) as [e|]; [specialize (H e); discriminate | lia]) |]; clear E.

  Lemma whitespace_ok : rule_ok (ini_whitespace text).
  Proof.
    intros off toks L. unfold ini_whitespace.
    destruct (take_flat text (fun c => (c =? 32) || (c =? 9) || (c =? 13))%Z (scan_fuel src) off toks) as (o & B & ->); [lia | unfold scan_fuel; cbn; lia|].
    cbn [option_map]. unfold token_if, lx_moved. rewrite !fl_pos. destruct (Nat.ltb_spec off o).
    - right. exists o, IWhitespace. split; [lia|]. split; [discriminate | reflexivity].
    - left. assert (o = off) as -> by lia. reflexivity.
  Qed.

  Lemma newline_ok : rule_ok (ini_newline text).
  Proof.
    intros off toks L. unfold ini_newline. cur off toks x E; cbn [is_char]; [|now left]. destruct (x =? 10)%Z; [|now left]. rewrite fl_advance. right. exists (Nat.min (off + 1) len), INewline. split; [lia|]. split; [discriminate | reflexivity].
  Qed.

  Lemma comment_ok : rule_ok (ini_comment text).
  Proof.
    intros off toks L. unfold ini_comment. cur off toks x E; cbn [is_char orb]; [|now left]. destruct ((x =? 59)%Z || (x =? 35)%Z); [|now left]. rewrite fl_advance.
    destruct (take_flat text (fun c => negb (c =? 10)%Z) (scan_fuel src) (Nat.min (off + 1) len) toks) as (o & B & ->); [lia | unfold scan_fuel; cbn; lia|].
    right. exists o, IComment. split; [lia|]. split; [discriminate | reflexivity].
  Qed.

  Lemma string_loop_ok q : forall fuel off toks, off <= len -> len - off < fuel -> exists o, off <= o <= len /\ ini_string_loop text fuel q (fl off toks) = Some (fl o toks).
  Proof.
    induction fuel as [| f IH]; intros off toks L F; [lia|]. cbn [ini_string_loop]. cur off toks c E; [|exists off; split; [lia|reflexivity]].
    destruct (c =? q)%Z; [rewrite fl_advance; eexists; split; [|reflexivity]; lia|]. destruct (c =? 92)%Z.
    - rewrite fl_advance. destruct (fl_current text (Nat.min (off + 1) len) toks ltac:(lia)) as (x & -> & _). destruct x; [rewrite fl_advance|].
      + destruct (IH (Nat.min (Nat.min (off + 1) len + 1) len) toks ltac:(lia) ltac:(lia)) as (o & B & ->). exists o. split; [lia | reflexivity].
      + destruct (IH (Nat.min (off + 1) len) toks ltac:(lia) ltac:(lia)) as (o & B & ->). exists o. split; [lia | reflexivity].
    - rewrite fl_advance. pose proof (char_len_pos c). destruct (IH (Nat.min (off + char_len c) len) toks ltac:(lia) ltac:(lia)) as (o & B & ->). exists o. split; [lia | reflexivity].
  Qed.
  Lemma string_ok : rule_ok (ini_string text).
  Proof.
    intros off toks L. unfold ini_string. cur off toks q E; [|now left]. destruct ((q =? 34) || (q =? 39))%Z; [|now left]. rewrite fl_advance.
    destruct (string_loop_ok q (scan_fuel src) (Nat.min (off + 1) len) toks) as (o & B & ->); [lia | unfold scan_fuel; cbn; lia|].
    right. exists o, IString. split; [lia|]. split; [discriminate | reflexivity].
  Qed.

  Lemma number_loop_ok : forall fuel dot exp off toks, off <= len -> len - off < fuel -> exists d e o, off <= o <= len /\ ini_number_loop text fuel dot exp (fl off toks) = Some (d, e, fl o toks).
  Proof.
    induction fuel as [| f IH]; intros dot exp off toks L F; [lia|]. cbn [ini_number_loop]. cur off toks c E; [|exists dot, exp, off; split; [lia|reflexivity]]. rewrite !fl_advance.
    destruct (ascii_digit_c c). { destruct (IH dot exp (Nat.min (off + 1) len) toks ltac:(lia) ltac:(lia)) as (d & e & o & B & ->). exists d, e, o. split; [lia | reflexivity]. }
    destruct ((c =? 46)%Z && negb dot && negb exp). { destruct (IH true exp (Nat.min (off + 1) len) toks ltac:(lia) ltac:(lia)) as (d & e & o & B & ->). exists d, e, o. split; [lia | reflexivity]. }
    destruct (((c =? 101) || (c =? 69))%Z && negb exp); [|exists dot, exp, off; split; [lia|reflexivity]].
    destruct (fl_current text (Nat.min (off + 1) len) toks ltac:(lia)) as (x & -> & _). destruct (is_char 43 x || is_char 45 x).
    - rewrite fl_advance. destruct (IH dot true (Nat.min (Nat.min (off + 1) len + 1) len) toks ltac:(lia) ltac:(lia)) as (d & e & o & B & ->). exists d, e, o. split; [lia | reflexivity].
    - destruct (IH dot true (Nat.min (off + 1) len) toks ltac:(lia) ltac:(lia)) as (d & e & o & B & ->). exists d, e, o. split; [lia | reflexivity].
  Qed.
  Lemma number_ok : rule_ok (ini_number text).
  Proof.
    intros off toks L. unfold ini_number. cur off toks c E; [|now left]. cbv zeta. destruct (negb (ascii_digit_c c) && negb ((c =? 45) || (c =? 43))%Z); [now left|].
    destruct (((c =? 45) || (c =? 43))%Z && _); [now left|]. rewrite fl_advance.
    destruct (number_loop_ok (scan_fuel src) false false (Nat.min (off + 1) len) toks) as (d & e & o & B & ->); [lia | unfold scan_fuel; cbn; lia|].
    destruct (existsb _ _).
    - left. unfold FlatProofs.fl, set_position, lx_pos. cbn [lx_cur cu_off cu_start cu_text lx_toks flat_source src_len]. rewrite Nat.min_l by lia. reflexivity.
    - right. exists o, (if d || e then IFloat else IInteger). split; [lia|]. split; [destruct (d || e); discriminate | reflexivity].
  Qed.

  Lemma word_loop_ok : forall fuel off toks, off <= len -> len - off < fuel -> exists o, off <= o <= len /\ ini_word_loop text fuel (fl off toks) = Some (fl o toks).
  Proof.
    induction fuel as [| f IH]; intros off toks L F; [lia|]. cbn [ini_word_loop]. cur off toks c E; [|exists off; split; [lia|reflexivity]].
    destruct (_ || _); [|exists off; split; [lia|reflexivity]]. rewrite fl_advance. destruct (IH (Nat.min (off + 1) len) toks ltac:(lia) ltac:(lia)) as (o & B & ->). exists o. split; [lia | reflexivity].
  Qed.
  Lemma identifier_ok : rule_ok (ini_identifier text).
  Proof.
    intros off toks L. unfold ini_identifier. cur off toks c E; [|now left]. destruct (negb _); [now left|]. rewrite fl_advance.
    destruct (word_loop_ok (scan_fuel src) (Nat.min (off + 1) len) toks) as (o & B & ->); [lia | unfold scan_fuel; cbn; lia|]. cbv zeta.
    right. eexists o, _. split; [lia|]. split; [|reflexivity]. destruct (existsb _ _); [discriminate|]. destruct (_ && _); discriminate.
  Qed.

  Lemma punct_not_eof c k : ini_punct c = Some k -> not_eof k.
  Proof. unfold ini_punct. intros H. repeat (destruct (_ =? _)%Z; [injection H as <-; discriminate|]). discriminate. Qed.
  Lemma punctuation_ok : rule_ok (ini_punctuation text).
  Proof.
    intros off toks L. unfold ini_punctuation. destruct (fl_starts text off toks (lit "[[") ltac:(lia)) as ([] & ->).
    { right. exists (Nat.min (off + 2) len), IDoubleLeft. split; [lia|]. split; [discriminate | reflexivity]. }
    destruct (fl_starts text off toks (lit "]]") ltac:(lia)) as ([] & ->).
    { right. exists (Nat.min (off + 2) len), IDoubleRight. split; [lia|]. split; [discriminate | reflexivity]. }
    cur off toks c E; [|now left]. destruct (ini_punct c) as [k|] eqn:P; [|now left]. apply punct_not_eof in P. pose proof (char_len_pos c).
    right. exists (Nat.min (off + char_len c) len), k. split; [lia|]. split; [assumption | reflexivity].
  Qed.

  Lemma ini_lex_total : exists toks, ini_lex text = Some (toks ++ [Token IEof len len]) /\ in_order 0 toks len /\ Forall (fun t => tk_kind t <> IEof /\ tk_start t < tk_end t) toks.
  Proof.
    apply (lex_flat text not_eof). unfold ini_rules. repeat (apply Forall_cons; [auto using whitespace_ok, newline_ok, comment_ok, string_ok, number_ok, identifier_ok, punctuation_ok|]). apply Forall_nil.
  Qed.
End Rules.

(** ** Parser *)
Notation ign := ini_ignored.

(** The tokens still to come end with the end of stream and have no other. *)
Definition endy (ys : list (nat * nat)) : Prop := exists pre, ys = pre ++ [(IEof, 0)] /\ Forall (fun y => fst y <> IEof) pre.
Definition settled (ys : list (nat * nat)) : Prop := ynext ign ys = ys.

Lemma endy_tail y ys : endy (y :: ys) -> fst y <> IEof -> endy ys.
Proof. intros ([| p pre] & E & F) H; injection E as -> E; [cbn in H; lia|]. exists pre. split; [assumption|]. now inversion F. Qed.
Lemma endy_next ys : endy ys -> endy (ynext ign ys).
Proof.
  induction ys as [| y ys IH]; intros E; [assumption|]. cbn [ynext]. destruct (ign (fst y)) eqn:I; [|assumption]. apply IH. apply (endy_tail _ _ E). intros H. rewrite H in I. discriminate.
Qed.
Lemma settled_next ys : settled (ynext ign ys).
Proof. unfold settled. induction ys as [| y ys IH]; [reflexivity|]. cbn [ynext]. destruct (ign (fst y)) eqn:I; [assumption|]. cbn [ynext]. now rewrite I. Qed.
Lemma endy_cons ys : endy ys -> exists y r, ys = y :: r.
Proof. intros ([| p pre] & -> & _); cbn; eexists _, _; reflexivity. Qed.

Section Parser.
  Variable toks : list token.
  Hypothesis Hfit : (Z.of_nat (toklen toks) < 2 ^ 32)%Z.
  Notation sits := (sits toks).

  Definition ready (n : nat) (s : pstate) (ys : list (nat * nat)) (trees : list green) : Prop := sits s ys trees /\ endy ys /\ settled ys /\ length ys <= n.

  (** Within [n] tokens of the end: an error with a diagnostic, or [d] tokens gone and trees added. *)
  Definition ok (d n : nat) (f : step) : Prop :=
    forall s ys trees, ready n s ys trees -> exists b s', f s = Some (b, s') /\
      if b then exists ys' more, ready n s' ys' (trees ++ more) /\ length ys' + d <= length ys else ps_errs s' <> [].

  Lemma ok_weak d n m f : ok d n f -> m <= n -> ok d m f.
  Proof.
    intros H L s ys trees (S & E & Se & N). destruct (H s ys trees) as (b & s' & F & R); [repeat split; try assumption; lia|]. exists b, s'. split; [assumption|]. destruct b; [|assumption]. destruct R as (ys' & more & (S' & E' & Se' & N') & D). exists ys', more. split; [|assumption]. repeat split; try assumption. lia.
  Qed.
  Lemma ok_less d n f : ok d n f -> ok 0 n f.
  Proof. intros H s ys trees R. destruct (H s ys trees R) as (b & s' & F & G). exists b, s'. split; [assumption|]. destruct b; [|assumption]. destruct G as (ys' & more & R' & D). exists ys', more. split; [assumption | lia]. Qed.

  (** The rest has fewer tokens by what the first step took. *)
  Lemma ok_then d e n a b : ok d (n + d) a -> ok e n b -> ok (d + e) (n + d) (andthen a b).
  Proof.
    intros A B s ys trees R. pose proof R as (_ & _ & _ & N). unfold andthen. destruct (A s ys trees R) as ([] & s1 & -> & R1); [|eexists _, _; split; [reflexivity | exact R1]].
    destruct R1 as (ys1 & m1 & (S1 & E1 & Se1 & N1) & D1). destruct (B s1 ys1 (trees ++ m1)) as (b' & s2 & F2 & R2); [repeat split; try assumption; lia|]. exists b', s2. split; [assumption|]. destruct b'; [|assumption].
    destruct R2 as (ys2 & m2 & (S2 & E2 & Se2 & N2) & D2). exists ys2, (m1 ++ m2). rewrite app_assoc. split; [|lia]. repeat split; try assumption. lia.
  Qed.

  Lemma skip_id n s ys trees : ready n s ys trees -> ini_skip s = s.
  Proof.
    intros (S & E & Se & _). destruct (endy_cons _ E) as (y & r & ->). unfold ini_skip. destruct (length (ps_toks s)); [reflexivity|]. cbn [ini_skip_loop]. rewrite !(sits_at _ _ _ _ _ S).
    assert (I : ign (fst y) = false). { unfold settled in Se. cbn [ynext] in Se. destruct (ign (fst y)) eqn:I; [|reflexivity]. apply (f_equal (@length _)) in Se. pose proof (ynext_length ign r). cbn in Se. lia. }
    unfold ini_ignored in I. apply orb_false_iff in I. destruct I as [I I3]. apply orb_false_iff in I. destruct I as [-> ->]. now rewrite I3.
  Qed.
  Lemma ok_skip n : ok 0 n skip_step.
  Proof. intros s ys trees R. exists true, s. unfold skip_step. rewrite (skip_id _ _ _ _ R). split; [reflexivity|]. exists ys, []. rewrite app_nil_r. split; [assumption | lia]. Qed.

  Lemma ready_bump n s y ys trees : ready n s (y :: ys) trees -> fst y <> IEof -> exists more, ready n (bump ign s) (ynext ign ys) (trees ++ more) /\ length (ynext ign ys) + 1 <= length (y :: ys).
  Proof.
    intros (S & E & Se & N) H. destruct (sits_bump ign toks Hfit _ _ _ _ S) as [B _]. eexists. pose proof (ynext_length ign ys). cbn [length] in *. split; [|lia]. split; [exact B|]. split; [apply endy_next; now apply (endy_tail y)|]. split; [apply settled_next | lia].
  Qed.

  Lemma errs_push s tag off : ps_errs (push_error s tag off) <> [].
  Proof. cbn. destruct (ps_errs s); discriminate. Qed.

  Lemma ok_expect n k : k <> IEof -> ok 1 n (expect_step k).
  Proof.
    intros K s ys trees R. pose proof R as (S & E & _). destruct (endy_cons _ E) as (y & r & ->). unfold expect_step, expect, eat. rewrite (sits_at _ _ _ _ _ S). destruct (Nat.eqb_spec (fst y) k) as [Y|Y].
    - destruct (ready_bump n s y r trees R) as (more & B & L); [congruence|]. exists true, (bump ign s). split; [reflexivity|]. exists (ynext ign r), more. now split.
    - eexists false, _. split; [reflexivity | apply errs_push].
  Qed.
  Lemma ok_fail d n tag : ok d n (fail_step tag).
  Proof. intros s ys trees R. eexists false, _. split; [reflexivity | apply errs_push]. Qed.

  Lemma ok_node d n kind body : ok d n body -> ok d n (ini_node kind body).
  Proof.
    intros H s ys trees R. unfold ini_node. destruct (H s ys trees R) as ([] & s1 & -> & R1); [|eexists _, _; split; [reflexivity | exact R1]].
    destruct R1 as (ys1 & m1 & (S1 & E1) & D1). unfold checkpoint. destruct R as (S & _). rewrite (sits_sink _ _ _ _ S).
    destruct (sits_finish ign toks Hfit _ _ _ _ (ps_index s) kind S1) as (i & s2 & -> & S2 & _). exists true, s2. split; [reflexivity|]. exists ys1, [gnode kind m1]. split; [|assumption]. split; [assumption | exact E1].
  Qed.

  Lemma ok_key_loop : forall fuel n, n < fuel -> ok 1 n (key_loop fuel).
  Proof.
    induction fuel as [| f IH]; intros n L s ys trees R; [lia|]. cbn [key_loop]. pose proof R as (S & E & _ & N). destruct (endy_cons _ E) as (y & r & ->). rewrite !(sits_at _ _ _ _ _ S).
    destruct ((fst y =? IIdentifier) || (fst y =? IString)) eqn:Y; [|now apply (ok_fail 1 n 1 s (y :: r) trees)].
    destruct (ready_bump n s y r trees R) as (m1 & R1 & L1). { intros H. rewrite H in Y. discriminate. }
    rewrite (skip_id _ _ _ _ R1). pose proof R1 as (S1 & E1 & _ & N1). destruct (endy_cons _ E1) as (y1 & r1 & Y1). rewrite Y1 in *. rewrite (sits_at _ _ _ _ _ S1). destruct (Nat.eqb_spec (fst y1) IDot) as [D|D].
    - destruct (ready_bump n _ y1 r1 _ R1) as (m2 & R2 & L2); [rewrite D; discriminate|]. rewrite (skip_id _ _ _ _ R2). destruct R2 as (S2 & E2 & Se2 & N2). cbn [length] in *.
      destruct (IH (n - 1) ltac:(lia) (bump ign (bump ign s)) (ynext ign r1) ((trees ++ m1) ++ m2)) as (b & s' & F & G); [repeat split; try assumption; lia|]. exists b, s'. split; [assumption|]. destruct b; [|assumption].
      destruct G as (ys' & m3 & (S3 & E3 & Se3 & N3) & D3). exists ys', (m1 ++ m2 ++ m3). rewrite !app_assoc. split; [|lia]. repeat split; try assumption. lia.
    - exists true, (bump ign s). split; [reflexivity|]. exists (y1 :: r1), m1. now split.
  Qed.
  Lemma ready_toks n s ys trees : ready n s ys trees -> length ys <= length (ps_toks s).
  Proof. intros (S & _). destruct (sits_toks _ _ _ _ S) as [-> L]. exact L. Qed.
  (** Steps whose fuel is taken from the state they start in. *)
  Lemma ok_fuel d n (g : nat -> step) : (forall fuel m, m < fuel -> ok d m (g fuel)) -> ok d n (fun s => g (S (length (ps_toks s))) s).
  Proof.
    intros H s ys trees R. pose proof (ready_toks _ _ _ _ R) as L. destruct R as (Si & E & Se & N). destruct (H (S (length (ps_toks s))) (length (ps_toks s)) ltac:(lia) s ys trees) as (b & s' & F & G); [now repeat split|]. exists b, s'. split; [assumption|]. destruct b; [|assumption].
    destruct G as (ys' & more & (S' & E' & Se' & N') & D). exists ys', more. split; [|assumption]. repeat split; try assumption. lia.
  Qed.
  Lemma ok_key n : ok 1 n parse_key.
  Proof.
    intros s ys trees R. unfold parse_key. apply (ok_node 1 n IKey (fun s' => key_loop (S (length (ps_toks s))) s')) with (ys := ys) (trees := trees); [|assumption].
    intros s1 ys1 trees1 R1. pose proof (ready_toks _ _ _ _ R1) as L. pose proof R1 as (S1 & E1 & Se1 & N1). pose proof R as (S & _). destruct (sits_toks _ _ _ _ S) as [T _], (sits_toks _ _ _ _ S1) as [T1 _]. rewrite T, <- T1.
    exact (ok_fuel 1 n key_loop ok_key_loop s1 ys1 trees1 R1).
  Qed.

  Lemma ok_items close item : close <> IEof -> forall fuel n, n < fuel -> ok 1 n item -> ok 0 n (items_loop fuel close item).
  Proof.
    intros C. induction fuel as [| f IH]; intros n L I s ys trees R; [lia|]. cbn [items_loop]. pose proof R as (S & E & _ & N). destruct (endy_cons _ E) as (y & r & ->). rewrite (sits_end _ _ _ _ S), (sits_at _ _ _ _ _ S). cbn [andb].
    destruct (fst y =? close); cbn [negb]. { exists true, s. split; [reflexivity|]. exists (y :: r), []. rewrite app_nil_r. split; [assumption | lia]. }
    destruct (I _ _ _ R) as ([] & s1 & -> & R1); [|eexists _, _; split; [reflexivity | exact R1]]. destruct R1 as (ys1 & m1 & R1 & D1). rewrite (skip_id _ _ _ _ R1).
    assert (C1 : exists s2 ys2 m2, (if at_kind s1 IComma then ini_skip (bump ign s1) else s1) = s2 /\ ready n s2 ys2 ((trees ++ m1) ++ m2) /\ length ys2 <= length ys1).
    { pose proof R1 as (S1 & E1 & _). destruct (endy_cons _ E1) as (y1 & r1 & ->). rewrite (sits_at _ _ _ _ _ S1). destruct (Nat.eqb_spec (fst y1) IComma) as [K|K].
      - destruct (ready_bump n _ _ _ _ R1) as (m2 & R2 & L2); [rewrite K; discriminate|]. exists (bump ign s1), (ynext ign r1), m2. split; [exact (skip_id _ _ _ _ R2)|]. split; [assumption | lia].
      - exists s1, (y1 :: r1), []. rewrite app_nil_r. split; [reflexivity|]. split; [assumption | lia]. }
    destruct C1 as (s2 & ys2 & m2 & -> & (S2 & E2 & Se2 & N2) & L2). cbn [length] in *.
    destruct (IH (n - 1) ltac:(lia) (ok_weak 1 n (n - 1) item I ltac:(lia)) s2 ys2 ((trees ++ m1) ++ m2)) as (b & s' & F & G); [repeat split; try assumption; lia|]. exists b, s'. split; [assumption|]. destruct b; [|assumption].
    destruct G as (ys' & m3 & (S3 & E3 & Se3 & N3) & D3). exists ys', (m1 ++ m2 ++ m3). rewrite !app_assoc. split; [|lia]. repeat split; try assumption. lia.
  Qed.

  Lemma ok_same d n f g : (forall s ys trees, ready n s ys trees -> f s = g s) -> ok d n g -> ok d n f.
  Proof. intros E H s ys trees R. rewrite (E _ _ _ R). now apply H. Qed.

  Lemma ok_parse_items n kind open close item : open <> IEof -> close <> IEof -> ok 1 n item -> ok 1 (n + 1) (parse_items kind open close item).
  Proof.
    intros O C I. apply ok_same with (g := ini_node kind (andthen (expect_step open) (andthen skip_step (andthen (items_loop (S (length toks)) close item) (expect_step close))))).
    - intros s ys trees (S & _). unfold parse_items. destruct (sits_toks _ _ _ _ S) as [-> _]. reflexivity.
    - apply ok_node. apply (ok_then 1 0 n); [now apply ok_expect|]. replace n with (n + 0) by lia. apply (ok_then 0 0 n); [replace (n + 0) with n by lia; apply ok_skip|].
      apply (ok_less 1). replace n with (n + 0) by lia. apply (ok_then 0 1 n); [|now apply ok_expect]. rewrite Nat.add_0_r. intros s ys trees R.
      pose proof R as (S & E & Se & N). destruct (sits_toks _ _ _ _ S) as [T L].
      assert (I' : ok 1 (Nat.min n (length toks)) item) by (apply (ok_weak _ n); [assumption | lia]).
      destruct (ok_items close item C (Datatypes.S (length toks)) (Nat.min n (length toks)) ltac:(lia) I' s ys trees) as (b & s' & F & G); [repeat split; try assumption; lia|]. exists b, s'. split; [assumption|]. destruct b; [|assumption].
      destruct G as (ys' & more & (S' & E' & Se' & N') & D). exists ys', more. split; [|assumption]. repeat split; try assumption. lia.
  Qed.

  Lemma ok_pair n value : ok 1 n value -> ok 1 (n + 1) (parse_pair value).
  Proof.
    intros V. unfold parse_pair. apply ok_node. apply (ok_then 1 0 n); [apply ok_key|]. apply (ok_less 2). replace n with (n + 0) by lia. apply (ok_then 0 2 n); [apply ok_skip|].
    destruct n as [| n].
    - intros s ys trees (S & E & _ & N). destruct (endy_cons _ E) as (y & r & ->). cbn in N. lia.
    - replace (S n) with (n + 1) by lia. apply (ok_then 1 1 n); [apply ok_expect; discriminate|]. replace n with (n + 0) by lia. apply (ok_then 0 1 n); [apply ok_skip|]. apply (ok_weak _ (S n)); [assumption | lia].
  Qed.

  Lemma ok_value : forall fuel n, n < fuel -> ok 1 n (parse_value fuel).
  Proof.
    induction fuel as [| f IH]; intros n L; [lia|]. cbn [parse_value]. apply ok_node. intros s ys trees R. pose proof R as (S & E & _ & N). destruct (endy_cons _ E) as (y & r & ->).
    assert (peek_kind s = Some (fst y)) as ->. { destruct S as (rest & V & M). unfold peek_kind. rewrite (sees_current _ _ _ _ V). destruct rest as [| t rest]; [discriminate|]. injection M as <- _. reflexivity. }
    destruct n as [| n]; [cbn in N; lia|]. assert (I : ok 1 n (parse_value f)) by (apply IH; lia).
    destruct (existsb _ _) eqn:X.
    { destruct (ready_bump _ _ _ _ _ R) as (m & R1 & L1). { intros H. rewrite H in X. discriminate. } exists true, (bump ign s). split; [reflexivity|]. exists (ynext ign r), m. now split. }
    destruct (fst y =? ILeftBracket). { apply (ok_weak _ (n + 1) (Datatypes.S n) _ (ok_parse_items n IArray ILeftBracket IRightBracket _ ltac:(discriminate) ltac:(discriminate) I) ltac:(lia) _ _ _ R). }
    destruct (fst y =? ILeftBrace).
    { assert (P : ok 1 n (parse_pair (parse_value f))) by (apply (ok_weak _ (n + 1)); [now apply ok_pair | lia]).
      apply (ok_weak _ (n + 1) (Datatypes.S n) _ (ok_parse_items n IInlineTable ILeftBrace IRightBrace _ ltac:(discriminate) ltac:(discriminate) P) ltac:(lia) _ _ _ R). }
    now apply (ok_fail 1 (Datatypes.S n) 2 s (y :: r) trees).
  Qed.
  Lemma ok_ini_value n : ok 1 n ini_value.
  Proof. exact (ok_fuel 1 n parse_value ok_value). Qed.
  Lemma ok_ini_pair n : ok 1 n ini_pair.
  Proof. apply (ok_weak _ (n + 1)); [apply ok_pair, ok_ini_value | lia]. Qed.

  Lemma ok_section : forall fuel n, n < fuel -> ok 0 n (section_loop fuel).
  Proof.
    induction fuel as [| f IH]; intros n L s ys trees R; [lia|]. cbn [section_loop]. rewrite (skip_id _ _ _ _ R). pose proof R as (S & E & _ & N). destruct (endy_cons _ E) as (y & r & ->). rewrite (sits_end _ _ _ _ S), !(sits_at _ _ _ _ _ S). cbn [andb negb orb].
    assert (Stay : exists b s', Some (true, s) = Some (b, s') /\ (if b then exists ys' more, ready n s' ys' (trees ++ more) /\ length ys' + 0 <= length (y :: r) else ps_errs s' <> [])).
    { exists true, s. split; [reflexivity|]. exists (y :: r), []. rewrite app_nil_r. split; [assumption | lia]. }
    destruct ((fst y =? ILeftBracket) || (fst y =? IDoubleLeft)); cbn [negb]; [exact Stay|]. clear Stay.
    destruct (ok_ini_pair n _ _ _ R) as ([] & s1 & -> & R1); [|eexists _, _; split; [reflexivity | exact R1]]. destruct R1 as (ys1 & m1 & (S1 & E1 & Se1 & N1) & D1). cbn [length] in *.
    destruct (IH (n - 1) ltac:(lia) s1 ys1 (trees ++ m1)) as (b & s' & F & G); [repeat split; try assumption; lia|]. exists b, s'. split; [assumption|]. destruct b; [|assumption].
    destruct G as (ys' & m3 & (S3 & E3 & Se3 & N3) & D3). exists ys', (m1 ++ m3). rewrite !app_assoc. split; [|lia]. repeat split; try assumption. lia.
  Qed.

  Lemma ok_table n : ok 1 n ini_table.
  Proof.
    intros s ys trees R. unfold ini_table. pose proof R as (S & _). destruct (sits_toks _ _ _ _ S) as [-> _]. set (d := at_kind s IDoubleLeft). clearbody d.
    assert (G : ok 1 (n + 1) (ini_node (if d then IArrayOfTables else ITable) (andthen (expect_step (if d then IDoubleLeft else ILeftBracket)) (andthen parse_key (andthen (expect_step (if d then IDoubleRight else IRightBracket)) (section_loop (Datatypes.S (length toks)))))))).
    { apply ok_node. apply (ok_then 1 0 n); [apply ok_expect; destruct d; discriminate|]. apply (ok_less 1). apply (ok_weak _ (n + 1)); [|lia]. apply (ok_then 1 0 n); [apply ok_key|]. apply (ok_less 1). apply (ok_weak _ (n + 1)); [|lia].
      apply (ok_then 1 0 n); [apply ok_expect; destruct d; discriminate|]. apply ok_same with (g := fun s => section_loop (Datatypes.S (length (ps_toks s))) s); [|apply ok_fuel, ok_section].
      intros s1 ys1 t1 (S1 & _). destruct (sits_toks _ _ _ _ S1) as [-> _]. reflexivity. }
    exact (ok_weak _ (n + 1) n _ G ltac:(lia) s ys trees R).
  Qed.

  Lemma root_fails : forall fuel n, n < fuel -> forall s ys trees, ready n s ys trees -> exists s', root_loop fuel s = Some (false, s') /\ ps_errs s' <> [].
  Proof.
    induction fuel as [| f IH]; intros n L s ys trees R; [lia|]. cbn [root_loop]. rewrite (skip_id _ _ _ _ R). pose proof R as (S & E & _ & N). destruct (endy_cons _ E) as (y & r & ->). rewrite (sits_end _ _ _ _ S). cbn [negb].
    assert (G : ok 1 n (fun s1 => if at_kind s1 ILeftBracket || at_kind s1 IDoubleLeft then ini_table s1 else ini_pair s1)).
    { intros s1 ys1 t1 R1. destruct (_ || _); [exact (ok_table n _ _ _ R1) | exact (ok_ini_pair n _ _ _ R1)]. }
    destruct (G _ _ _ R) as ([] & s1 & Eq & R1); rewrite Eq; [|exists s1; now split]. destruct R1 as (ys1 & m1 & (S1 & E1 & Se1 & N1) & D1). cbn [length] in *.
    apply (IH (n - 1) ltac:(lia) s1 ys1 (trees ++ m1)). repeat split; try assumption. lia.
  Qed.
End Parser.

Lemma in_order_toklen : forall ts a b, in_order a ts b -> a <= b /\ toklen ts <= b - a.
Proof.
  induction ts as [| t r IH]; intros a b H; cbn [in_order] in H; [cbn; lia|]. destruct H as (? & ? & H). apply IH in H. rewrite toklen_cons. lia.
Qed.

Lemma ini_fails text : (Z.of_nat (length text) < 2 ^ 32)%Z -> exists errs, ini_parse text = Some (Failed, errs) /\ errs <> [].
Proof.
  intros L. unfold ini_parse. destruct (ini_lex_total text) as (ts & -> & O & F). set (toks := ts ++ [_]).
  assert (Hfit : (Z.of_nat (toklen toks) < 2 ^ 32)%Z). { unfold toks. rewrite toklen_app, toklen_cons. cbn [tk_end tk_start]. change (toklen []) with 0. apply in_order_toklen in O. lia. }
  destruct (sits_new ign toks Hfit (length text) []) as [S _]. set (s := ps_new ign toks (length text) []) in *.
  unfold ini_root. assert (R : ready toks (length toks) s (ynext ign (map tok_yield toks)) (map yleaf (ytrivia ign (map tok_yield toks)))).
  { split; [assumption|]. split. { apply endy_next. exists (map tok_yield ts). unfold toks. rewrite map_app. split; [cbn; unfold tok_yield; cbn; now rewrite Nat.sub_diag|]. apply Forall_map. eapply Forall_impl; [|exact F]. cbn. intros t [H _]. exact H. }
    split; [apply settled_next|]. etransitivity; [apply ynext_length|]. now rewrite map_length. }
  destruct (sits_toks _ _ _ _ S) as [-> _]. destruct (root_fails toks Hfit (Datatypes.S (length toks)) (length toks) ltac:(lia) s _ _ R) as (s' & -> & E). exists (ps_errs s'). now split.
Qed.
