From Verif Require Import Base Utf8 Utf8Facts RopeModel CursorModel CursorSpec CursorProofs LineMapModel LineMapSpec LineMapProofs LineMapProps
  HiModel HiSpec HiProofs DiagModel DiagSpec.

Lemma encode_char_lf c x : is_scalar c -> (x = 10 \/ x = 13)%Z -> In x (encode_char c) <-> c = x.
Proof.
  intros Hs Hx. unfold encode_char. destruct (Z.ltb_spec c 128).
  - cbn. lia.
  - unfold is_scalar in Hs. split; [|intros ->; lia]. intros Hi. exfalso.
    destruct (Z.ltb_spec c 2048); [|destruct (Z.ltb_spec c 65536)]; cbn [In] in Hi;
    repeat match type of Hi with _ \/ _ => destruct Hi as [Hi | Hi] end; try contradiction;
    match type of Hi with (?b + ?e)%Z = _ => assert (0 <= e)%Z by (try apply Z.mod_pos_bound; try apply Z.div_pos; lia); lia end.
Qed.

Lemma encode_in cs x : Forall is_scalar cs -> (x = 10 \/ x = 13)%Z -> In x (encode cs) <-> In x cs.
Proof.
  intros H Hx. induction H as [| c r Hc Hr IH]; [reflexivity|]. cbn [encode]. rewrite in_app_iff, (encode_char_lf c x Hc Hx), IH. cbn. tauto.
Qed.

Lemma count_feeds cs : Forall is_scalar cs -> count_occ Z.eq_dec (encode cs) 10%Z = count_occ Z.eq_dec cs 10%Z.
Proof.
  induction 1 as [| c r Hc Hr IH]; [reflexivity|]. cbn [encode]. rewrite count_occ_app, IH. cbn [count_occ].
  destruct (Z.eq_dec c 10) as [-> | N]; [reflexivity|].
  assert (E : count_occ Z.eq_dec (encode_char c) 10%Z = 0).
  { apply count_occ_not_In. rewrite (encode_char_lf c 10 Hc) by now left. assumption. }
  now rewrite E.
Qed.

(** ** Lines *)
Lemma lines_feed pre : forall cur rest, lines_from cur (pre ++ 10%Z :: rest) = lines_from cur (pre ++ [10%Z]) ++ lines_from [] rest.
Proof.
  induction pre as [| c r IH]; intros cur rest; cbn [app lines_from].
  - change (10 =? 10)%Z with true. reflexivity.
  - destruct (c =? 10)%Z; [cbn [app]; f_equal; apply IH | apply IH].
Qed.
Lemma lines_count pre : forall cur, length (lines_from cur (pre ++ [10%Z])) = S (count_occ Z.eq_dec pre 10%Z).
Proof.
  induction pre as [| c r IH]; intros cur; cbn [app lines_from count_occ].
  - change (10 =? 10)%Z with true. reflexivity.
  - destruct (Z.eqb_spec c 10), (Z.eq_dec c 10); try congruence; cbn [length]; now rewrite IH.
Qed.
Lemma lines_first line : forall cur rest, ~ In 10%Z line ->
  lines_from cur (line ++ 10%Z :: rest) = strip_cr (rev cur ++ line) :: lines_from [] rest.
Proof.
  induction line as [| c r IH]; intros cur rest N; cbn [app lines_from].
  - change (10 =? 10)%Z with true. now rewrite app_nil_r.
  - destruct (Z.eqb_spec c 10) as [-> |]; [exfalso; apply N; now left|]. rewrite IH by (intros G; apply N; now right).
    cbn [rev]. now rewrite <- app_assoc.
Qed.
Lemma lines_last line : forall cur, ~ In 10%Z line -> rev cur ++ line <> [] -> lines_from cur line = [rev cur ++ line].
Proof.
  induction line as [| c r IH]; intros cur N E; cbn [lines_from].
  - rewrite app_nil_r in *. destruct cur; [now contradiction E|]. reflexivity.
  - destruct (Z.eqb_spec c 10) as [-> |]; [exfalso; apply N; now left|].
    assert (E2 : rev (c :: cur) ++ r = rev cur ++ c :: r) by (cbn [rev]; now rewrite <- app_assoc).
    rewrite IH; [now rewrite E2 | intros G; apply N; now right | now rewrite E2].
Qed.

Lemma nth_line pre line rest : (pre = [] \/ exists p, pre = p ++ [10%Z]) -> ~ In 10%Z line -> (rest = [] \/ exists r, rest = 10%Z :: r) ->
  line <> [] \/ rest <> [] ->
  nth_error (lines (pre ++ line ++ rest)) (count_occ Z.eq_dec pre 10%Z) = Some (match rest with [] => line | _ => strip_cr line end).
Proof.
  intros Hp Hl Hr Hn. unfold lines.
  assert (G : nth_error (lines_from [] (line ++ rest)) 0 = Some (match rest with [] => line | _ => strip_cr line end)).
  { destruct Hr as [-> | (r & ->)].
    - rewrite app_nil_r. rewrite lines_last; [reflexivity | assumption |]. cbn. destruct Hn; congruence.
    - rewrite lines_first by assumption. reflexivity. }
  destruct Hp as [-> | (p & ->)]; [exact G|]. rewrite <- app_assoc. cbn [app]. rewrite lines_feed, count_occ_app.
  rewrite nth_error_app2; rewrite lines_count; [|cbn; lia]. replace (_ - _) with 0 by (cbn; lia). exact G.
Qed.

Lemma strip_cr_spec l rest : Forall is_scalar l -> forall x, shown_line l rest x ->
  (match rest with [] => encode l | _ => strip_cr (encode l) end) = encode x.
Proof.
  intros Hs x [[Hr ->] | [-> Hn]].
  - destruct rest; [congruence|]. rewrite encode_app. cbn. unfold strip_cr. rewrite rev_app_distr. cbn. now rewrite rev_involutive.
  - destruct rest as [| z rest]; [reflexivity|]. specialize (Hn ltac:(discriminate)). unfold strip_cr.
    destruct (rev (encode l)) as [| b w] eqn:E; [reflexivity|].
    assert (Eb : encode l = rev w ++ [b]) by (rewrite <- (rev_involutive (encode l)), E; reflexivity).
    destruct (Z.eqb_spec b 13) as [-> | N]; [exfalso | reflexivity].
    destruct (exists_last (l := l)) as (y & c & El); [intros ->; discriminate|].
    rewrite El, encode_app in Eb. cbn [encode] in Eb. rewrite app_nil_r in Eb.
    assert (Hc : is_scalar c) by (rewrite El in Hs; apply Forall_app in Hs; destruct Hs as [_ Hs]; now inv Hs).
    assert (Hi : In 13%Z (encode_char c)).
    { destruct (exists_last (l := encode_char c)) as (y2 & b2 & E2); [intros G; assert (L := encode_char_length c); rewrite G in L; assert (P := char_len_pos c); cbn in L; lia|].
      rewrite E2 in Eb |- *. rewrite app_assoc in Eb. apply app_inj_tail in Eb. destruct Eb as [_ ->]. apply in_or_app. right. now left. }
    rewrite (encode_char_lf c 13 Hc) in Hi by now right. subst c. now apply (Hn y).
Qed.

(** ** Places *)
Section Place.
  Variables (r : reader) (text : str).
  Hypothesis Hreads : reads r text.
  Hypothesis Hlen : (Z.of_nat (length text) < 2 ^ 32)%Z.

  Lemma feeds_small o : (Z.of_nat (feeds_before text o) < 2 ^ 32)%Z.
  Proof.
    assert (H : forall s : str, count_occ Z.eq_dec s 10%Z <= length s).
    { induction s as [| c s IH]; [cbn; lia|]. cbn [count_occ length]. destruct (Z.eq_dec c 10); lia. }
    specialize (H (firstn o text)). unfold feeds_before. rewrite firstn_length in H. lia.
  Qed.

  Lemma line_at o : o <= length text -> exists c, offset_to_line_col (map_of text) r o = Some (feeds_before text o, c).
  Proof.
    intros Ho. destruct (find_line text o Ho) as (s & Es & _ & Hf & _). unfold offset_to_line_col. cbn [lm_starts lm_len map_of].
    rewrite Nat.min_l by assumption. rewrite Hf, Es. eexists. f_equal. f_equal. apply u32_small, feeds_small.
  Qed.

  Lemma start_of o s : begins_line text s -> s <= o <= length text -> (forall i, s <= i < o -> nth_error text i <> Some 10%Z) ->
    line_start (map_of text) (feeds_before text o) = Some s.
  Proof.
    intros Hb Ho Hn. destruct (on_line_found text o ltac:(lia)) as (s' & Es & (_ & Hs' & Hb' & Hn')). unfold line_start. cbn [lm_starts map_of].
    rewrite Es. f_equal. destruct (Nat.lt_trichotomy s s') as [L | [L | L]]; [exfalso | congruence | exfalso].
    - destruct Hb' as [-> | (i & -> & Hi)]; [lia|]. apply (Hn i); [lia | assumption].
    - destruct Hb as [-> | (i & -> & Hi)]; [lia|]. apply (Hn' i); [lia | assumption].
  Qed.
End Place.

Lemma get_count_encode a b c : Forall is_scalar a -> Forall is_scalar b -> Forall is_scalar c ->
  get_count (encode (a ++ b ++ c)) (length (encode a)) (length (encode (a ++ b))) = length b.
Proof.
  intros Ha Hb Hc. unfold get_count, str_get. rewrite !encode_app, !app_length.
  assert (V : valid (encode c)) by (exists c; now split). assert (V2 : valid (encode b ++ encode c)) by (apply valid_app; [exists b; now split | assumption]).
  rewrite (is_boundary_app _ _ V2). rewrite app_assoc. rewrite (is_boundary_app' (encode a ++ encode b) (encode c)) by (try assumption; now rewrite app_length).
  destruct (Nat.leb_spec (length (encode a)) (length (encode a) + length (encode b))); [|lia].
  destruct (Nat.leb_spec (length (encode a) + length (encode b)) (length (encode a) + (length (encode b) + length (encode c)))); [|lia].
  cbn [andb]. unfold substr. rewrite <- app_assoc, skipn_app, Nat.sub_diag, skipn_all. cbn [app skipn].
  replace (length (encode a) + length (encode b) - length (encode a)) with (length (encode b)) by lia.
  rewrite firstn_app, Nat.sub_diag, firstn_all. cbn [firstn]. rewrite app_nil_r. now rewrite chars_encode.
Qed.

(** ** Rows *)
Lemma rows_nonempty s : rows s <> [].
Proof. destruct s as [| c r]; cbn; [discriminate|]. destruct (c =? 10)%Z; [discriminate|]. destruct (rows r); discriminate. Qed.
Lemma rows_feed a b : rows (a ++ 10%Z :: b) = rows a ++ rows b.
Proof.
  induction a as [| c a IH]; cbn [app rows].
  - change (10 =? 10)%Z with true. reflexivity.
  - destruct (c =? 10)%Z; [now rewrite IH|]. rewrite IH. assert (N := rows_nonempty a). destruct (rows a); [congruence | reflexivity].
Qed.
Lemma rows_one a : ~ In 10%Z a -> rows a = [a].
Proof.
  induction a as [| c a IH]; intros N; [reflexivity|]. cbn [rows]. destruct (Z.eqb_spec c 10) as [-> |]; [exfalso; apply N; now left|].
  rewrite IH by (intros G; apply N; now right). reflexivity.
Qed.
Lemma rows_prefix a b : ~ In 10%Z a -> exists x y, rows b = x :: y /\ rows (a ++ b) = (a ++ x) :: y.
Proof.
  intros N. assert (Nb := rows_nonempty b). destruct (rows b) as [| x y] eqn:E; [congruence|]. exists x, y. split; [reflexivity|].
  induction a as [| c a IH]; [exact E|]. cbn [app rows]. destruct (Z.eqb_spec c 10) as [-> |]; [exfalso; apply N; now left|].
  rewrite IH by (intros G; apply N; now right). reflexivity.
Qed.

Lemma marks_intro head g1 line g2 k n tail : ~ In 10%Z g1 -> ~ In 10%Z line -> ~ In 10%Z g2 -> ~ In 94%Z g2 -> length g1 = length g2 ->
  hd_error tail <> Some 94%Z ->
  marks (head ++ nl ++ g1 ++ line ++ nl ++ g2 ++ repeat 32%Z k ++ repeat 94%Z n ++ tail) line k n.
Proof.
  intros N1 N2 N3 N4 L T. unfold marks, nl. cbn [app]. rewrite rows_feed. rewrite app_assoc. rewrite rows_feed, (rows_one (g1 ++ line)) by (rewrite in_app_iff; tauto).
  destruct (rows_prefix (g2 ++ repeat 32%Z k ++ repeat 94%Z n) tail) as (x & y & Ex & E).
  { rewrite !in_app_iff. intros [G | [G | G]]; [contradiction | apply repeat_spec in G; discriminate | apply repeat_spec in G; discriminate]. }
  rewrite <- !app_assoc in E. rewrite E. exists (length (rows head)), g1, g2, x.
  split; [rewrite nth_error_app2, Nat.sub_diag by lia; reflexivity|].
  split; [rewrite nth_error_app2 by lia; replace (S (length (rows head)) - length (rows head)) with 1 by lia; reflexivity|].
  split; [assumption|]. split; [assumption|]. intros G. apply T. destruct tail as [| c tail]; cbn [rows] in Ex.
  - injection Ex as <- _. discriminate.
  - destruct (c =? 10)%Z; [injection Ex as <- _; discriminate|]. destruct (rows tail); injection Ex as <- _; exact G.
Qed.

Lemma dec_clean n c : In c (dec n) -> (48 <= c <= 57)%Z.
Proof. intros H. assert (F := dec_digits (S n) n). rewrite Forall_forall in F. exact (F c H). Qed.

Lemma pad_clean w n c : In c (pad_left w (dec n)) -> (c = 32 \/ 48 <= c <= 57)%Z.
Proof. intros H. apply in_app_or in H. destruct H as [H | H]; [left; eapply repeat_spec; exact H | right; eapply dec_clean; exact H]. Qed.

(** ** One-line labels *)
Section Single.
  Variables (r : reader) (pre before lab after post : list Z).
  Hypothesis Hs : Forall is_scalar (pre ++ before ++ lab ++ after ++ post).
  Let text := encode (pre ++ before ++ lab ++ after ++ post).
  Hypothesis Hreads : reads r text.
  Hypothesis Hlen : (Z.of_nat (length text) < 2 ^ 32)%Z.
  Hypothesis Hline : line_between pre (before ++ lab ++ after) post.

  Let start := length (encode (pre ++ before)).

  Lemma parts_scalar : Forall is_scalar pre /\ Forall is_scalar before /\ Forall is_scalar lab /\ Forall is_scalar after /\ Forall is_scalar post.
  Proof. rewrite !Forall_app in Hs. tauto. Qed.

  Lemma text_parts : text = encode pre ++ encode before ++ encode lab ++ encode after ++ encode post.
  Proof. unfold text. now rewrite !encode_app. Qed.

  Lemma begins_pre : begins_line text (length (encode pre)).
  Proof.
    destruct Hline as ([E | (p & E)] & _); [left; now rewrite E | right].
    exists (length (encode p)). rewrite text_parts, E, encode_app, app_length. cbn [encode app length].
    split; [cbn; lia|]. rewrite <- app_assoc. rewrite nth_error_app2, Nat.sub_diag by lia. reflexivity.
  Qed.

  Lemma line_bytes i : length (encode pre) <= i < length (encode pre) + length (encode (before ++ lab ++ after)) -> nth_error text i <> Some 10%Z.
  Proof.
    intros Hi Hn. destruct Hline as (_ & Hl & _). destruct parts_scalar as (_ & H1 & H2 & H3 & _).
    assert (In 10%Z (encode (before ++ lab ++ after))).
    { rewrite text_parts in Hn. rewrite nth_error_app2 in Hn by lia.
      replace (encode before ++ encode lab ++ encode after ++ encode post) with (encode (before ++ lab ++ after) ++ encode post) in Hn
        by (rewrite !encode_app, <- !app_assoc; reflexivity).
      rewrite nth_error_app1 in Hn by lia. eapply nth_error_In. exact Hn. }
    rewrite encode_in in H; [contradiction | | now left]. rewrite !Forall_app. tauto.
  Qed.

  Lemma feeds_line o : length (encode pre) <= o <= length (encode pre) + length (encode (before ++ lab ++ after)) ->
    feeds_before text o = count_occ Z.eq_dec pre 10%Z.
  Proof.
    intros Ho. destruct parts_scalar as (H0 & H1 & H2 & H3 & _). unfold feeds_before. rewrite text_parts, firstn_app, count_occ_app.
    rewrite firstn_all2 by lia. rewrite count_feeds by assumption.
    match goal with |- _ + ?x = _ => enough (x = 0) by lia end. apply count_occ_not_In. intros Hi. destruct Hline as (_ & Hl & _).
    replace (encode before ++ encode lab ++ encode after ++ encode post) with (encode (before ++ lab ++ after) ++ encode post) in Hi
        by (rewrite !encode_app, <- !app_assoc; reflexivity).
    rewrite firstn_app in Hi. replace (o - length (encode pre) - length (encode (before ++ lab ++ after))) with 0 in Hi by lia. cbn [firstn] in Hi.
    rewrite app_nil_r in Hi. assert (Hi2 : In 10%Z (encode (before ++ lab ++ after))) by (rewrite <- (firstn_skipn (o - length (encode pre))); apply in_or_app; now left).
    rewrite encode_in in Hi2; [contradiction | | now left]. rewrite !Forall_app. tauto.
  Qed.

  Lemma locate_single l : lb_start l = start -> start <= lb_end l <= length (encode (pre ++ before ++ lab ++ after)) ->
    exists ec, locate (map_of text) r text l = Some (Place (count_occ Z.eq_dec pre 10%Z) (count_occ Z.eq_dec pre 10%Z) (length before) ec).
  Proof.
    intros El He. destruct parts_scalar as (H0 & H1 & H2 & H3 & H4).
    assert (Lt : length text = length (encode pre) + (length (encode before) + (length (encode lab) + (length (encode after) + length (encode post))))) by (rewrite text_parts, !app_length; reflexivity).
    unfold start in *. rewrite !encode_app, !app_length in *.
    unfold locate. rewrite El.
    destruct (line_at r text Hlen (length (encode pre) + length (encode before))) as (c1 & ->); [lia|].
    destruct (line_at r text Hlen (lb_end l)) as (c2 & ->); [lia|].
    rewrite (start_of text (length (encode pre) + length (encode before)) (length (encode pre))); [|exact begins_pre | lia | intros i Hi; apply line_bytes; rewrite !encode_app, !app_length; lia].
    rewrite !feeds_line by (rewrite !encode_app, !app_length; lia).
    eexists. f_equal. f_equal. rewrite Nat.min_l by lia.
    replace (length (encode pre) + length (encode before)) with (length (encode (pre ++ before))) by (rewrite encode_app, app_length; lia).
    apply get_count_encode; [assumption | assumption | rewrite !Forall_app; tauto].
  Qed.

  Lemma snippet_single u l uri x : lb_start l = start -> start <= lb_end l <= length (encode (pre ++ before ++ lab ++ after)) ->
    before ++ lab ++ after <> [] \/ post <> [] -> shown_line (before ++ lab ++ after) post x ->
    (exists ec, locate (map_of text) r text l = Some (Place (count_occ Z.eq_dec pre 10%Z) (count_occ Z.eq_dec pre 10%Z) (length before) ec)) /\
    nth_error (lines text) (count_occ Z.eq_dec pre 10%Z) = Some (encode x) /\ Forall is_scalar x /\ ~ In 10%Z x /\
    exists out, snippet_plain u (map_of text) r text l uri = Some out /\ marks out x (length before) (underline_len text l).
  Proof.
    intros El He Hn Hx. destruct parts_scalar as (H0 & H1 & H2 & H3 & H4). destruct Hline as (Hp & Hl & Hq).
    assert (HL : Forall is_scalar (before ++ lab ++ after)) by (rewrite !Forall_app; tauto).
    assert (E : nth_error (lines text) (count_occ Z.eq_dec pre 10%Z) = Some (encode x)).
    { rewrite <- (strip_cr_spec _ _ HL x Hx). rewrite <- count_feeds by assumption.
      replace text with (encode pre ++ encode (before ++ lab ++ after) ++ encode post) by (rewrite text_parts, !encode_app, <- !app_assoc; reflexivity).
      assert (Ep : forall q, encode q = [] -> q = []).
      { intros [| c q] Eq; [reflexivity|]. exfalso. cbn [encode] in Eq. apply app_eq_nil in Eq. destruct Eq as [Eq _].
        assert (L := encode_char_length c). rewrite Eq in L. assert (P := char_len_pos c). cbn in L. lia. }
      rewrite nth_line.
      - destruct post as [| c q] eqn:Epost; [reflexivity|]. destruct (encode (c :: q)) eqn:Ee; [apply Ep in Ee; discriminate | reflexivity].
      - destruct Hp as [-> | (p & ->)]; [now left | right]. exists (encode p). now rewrite encode_app.
      - rewrite encode_in; [assumption | assumption | now left].
      - destruct Hq as [-> | (q & ->)]; [now left | right]. now exists (encode q).
      - destruct Hn as [Hn | Hn]; [left | right]; intros G; apply Ep in G; contradiction. }
    assert (Hxs : Forall is_scalar x /\ ~ In 10%Z x).
    { destruct Hx as [[_ Hx] | [-> _]]; [|now split]. rewrite Hx in HL, Hl. apply Forall_app in HL. split; [tauto|]. intros G. apply Hl. apply in_or_app. now left. }
    destruct Hxs as [Hxs Hxl]. split; [now apply locate_single|]. split; [exact E|]. split; [assumption|]. split; [assumption|].
    destruct (locate_single l El He) as (ec & Hloc). unfold snippet_plain. rewrite Hloc. cbn [pl_start_line pl_end_line pl_start_col]. rewrite Nat.eqb_refl, E.
    rewrite chars_encode by assumption. eexists. split; [reflexivity|].
    set (w := length (dec (count_occ Z.eq_dec pre 10%Z + 1))). set (ch := charset_of u).
    set (g1 := pad_left w (dec (count_occ Z.eq_dec pre 10%Z + 1)) ++ lit " " ++ [ch_vbar ch] ++ lit " ").
    set (g2 := repeat 32%Z w ++ lit " " ++ [ch_vbar ch] ++ lit " ").
    unfold location. cbn [pl_start_line pl_end_line pl_start_col]. fold w ch.
    set (tail := (match lb_message l with Some msg => lit " " ++ msg ++ nl | None => nl end) ++ repeat 32%Z w ++ lit " " ++ [ch_vbar ch] ++ nl).
    assert (Hv : ch_vbar ch <> 10%Z /\ ch_vbar ch <> 94%Z) by (unfold ch; destruct u; cbn; lia).
    assert (M := marks_intro
      (lit "  " ++ [ch_ltop ch] ++ lit " at " ++ (match uri with Some x => x | None => lit "<anonymous>" end) ++ lit ":" ++
        dec (count_occ Z.eq_dec pre 10%Z + 1) ++ lit ":" ++ dec (length before + 1) ++ nl ++ repeat 32%Z w ++ lit " " ++ [ch_vbar ch])
      g1 x g2 (length before) (underline_len text l) tail).
    unfold g1, g2, tail in M. rewrite <- !app_assoc in M. repeat (unfold str in *; rewrite <- !app_assoc). apply M; clear M.
    - rewrite !in_app_iff. intros [G | [G | [G | G]]]; [apply pad_clean in G; lia | cbn in G; lia | cbn in G; lia | cbn in G; lia].
    - assumption.
    - rewrite !in_app_iff. intros [G | [G | [G | G]]]; [apply repeat_spec in G; lia | cbn in G; lia | cbn in G; lia | cbn in G; lia].
    - rewrite !in_app_iff. intros [G | [G | [G | G]]]; [apply repeat_spec in G; lia | cbn in G; lia | cbn in G; lia | cbn in G; lia].
    - unfold pad_left. rewrite !app_length, !repeat_length. fold w. cbn [length]. lia.
    - destruct (lb_message l); cbn; discriminate.
  Qed.
End Single.

(** ** The console emitter *)
Lemma displays_app a x : displays a x -> forall b y, displays b y -> displays (a ++ b) (x ++ y).
Proof.
  induction 1 as [| codes r x F H IH | c r x N H IH]; intros b y Hb; [assumption | |].
  - cbn [app]. rewrite <- app_assoc. cbn [app]. apply DCode; auto.
  - cbn [app]. apply DChar; auto.
Qed.
Lemma displays_plain t : ~ In 27%Z t -> displays t t.
Proof. intros N. assert (H := displays_text t N [] [] DEnd). now rewrite !app_nil_r in H. Qed.
Lemma displays_skip a b y : displays a [] -> displays b y -> displays (a ++ b) y.
Proof. intros Ha Hb. exact (displays_app a [] Ha b y Hb). Qed.

Lemma codeb codes : forallb (fun c => ((48 <=? c) && (c <=? 57) || (c =? 59))%Z) codes = true ->
  displays (27%Z :: 91%Z :: codes ++ [109%Z]) [].
Proof.
  intros H. apply (DCode codes [] []); [|constructor]. rewrite forallb_forall in H. apply Forall_forall. intros c Hc. specialize (H c Hc). cbn beta in H. lia.
Qed.
Lemma displays_blue : displays blue [].
Proof. apply (codeb (lit "34")). reflexivity. Qed.
Lemma displays_red : displays red_bold [].
Proof. apply (codeb (lit "31;1")). reflexivity. Qed.
Lemma displays_reset : displays reset [].
Proof. apply (codeb (lit "0")). reflexivity. Qed.
Lemma displays_severity s : displays (severity_color s) [].
Proof. destruct s; [apply (codeb (lit "31;1")) | apply (codeb (lit "33;1")) | apply (codeb (lit "36;1"))]; reflexivity. Qed.

Definition no_esc (s : list Z) : Prop := ~ In 27%Z s.
Definition opt_no_esc (s : option (list Z)) : Prop := forall x, s = Some x -> no_esc x.

Lemma no_esc_dec n : no_esc (dec n).
Proof. intros H. apply dec_clean in H. lia. Qed.
Lemma no_esc_repeat c n : c <> 27%Z -> no_esc (repeat c n).
Proof. intros N H. apply repeat_spec in H. congruence. Qed.
Lemma no_esc_pad w n : no_esc (pad_left w (dec n)).
Proof. intros H. apply pad_clean in H. lia. Qed.
Lemma no_esc_char u : ch_vbar (charset_of u) <> 27%Z /\ ch_ltop (charset_of u) <> 27%Z.
Proof. destruct u; cbn; lia. Qed.
Lemma no_esc_lit s : forallb (fun c => negb (c =? 27)%Z) s = true -> no_esc s.
Proof. intros H G. rewrite forallb_forall in H. specialize (H _ G). discriminate. Qed.

Ltac quiet :=
  first [ apply no_esc_dec | apply no_esc_pad | apply no_esc_repeat; lia | apply no_esc_lit; vm_compute; reflexivity | assumption ].
Ltac disp := apply displays_app; [apply displays_plain; quiet|].

Definition one_line (cs : list Z) (l : label) : Prop :=
  exists pre before lab after post, cs = pre ++ before ++ lab ++ after ++ post /\ line_between pre (before ++ lab ++ after) post /\
    lb_start l = length (encode (pre ++ before)) /\
    length (encode (pre ++ before)) <= lb_end l <= length (encode (pre ++ before ++ lab ++ after)).

Lemma bar_displays u b y : displays b y -> displays (bar u ++ b) ([ch_vbar (charset_of u)] ++ y).
Proof.
  intros H. unfold bar. rewrite <- !app_assoc. apply displays_skip; [apply displays_blue|].
  apply displays_app; [apply displays_plain; intros [G | []]; destruct (no_esc_char u); congruence|]. apply displays_skip; [apply displays_reset | assumption].
Qed.

Lemma shown_exists line rest : exists x, shown_line line rest x.
Proof.
  destruct rest as [| z rest]; [exists line; right; split; [reflexivity | congruence]|].
  destruct (exists_last (l := 0%Z :: line)) as (y & c & E); [discriminate|].
  destruct line as [| a line]; [exists []; right; split; [reflexivity | intros _ [| ? ?]; discriminate]|].
  destruct (exists_last (l := a :: line)) as (y2 & c2 & E2); [discriminate|]. rewrite E2.
  destruct (Z.eq_dec c2 13) as [-> | N]; [exists y2; left; split; [discriminate | reflexivity] | exists (y2 ++ [c2]); right; split; [reflexivity|]].
  intros _ y3 E3. apply app_inj_tail in E3. destruct E3. congruence.
Qed.

Lemma console_single u r cs l uri : Forall is_scalar cs -> no_esc cs -> reads r (encode cs) -> (Z.of_nat (length (encode cs)) < 2 ^ 32)%Z ->
  one_line cs l -> opt_no_esc uri -> opt_no_esc (lb_message l) -> (lb_color l = None \/ exists c, lb_color l = Some c /\ displays c []) ->
  exists c p, snippet_console u (map_of (encode cs)) r (encode cs) l uri = Some c /\ snippet_plain u (map_of (encode cs)) r (encode cs) l uri = Some p /\ displays c p.
Proof.
  intros Hs He Hr Hl (pre & before & lab & after & post & -> & Hline & El & Hend) Hu Hm Hc.
  destruct (locate_single r pre before lab after post Hs Hl Hline l El Hend) as (ec & Hloc).
  unfold snippet_console, snippet_plain. rewrite Hloc. cbn [pl_start_line pl_end_line pl_start_col]. rewrite Nat.eqb_refl.
  do 2 eexists. split; [reflexivity|]. split; [reflexivity|]. unfold location. cbn [pl_start_line pl_end_line pl_start_col].
  set (w := length (dec (count_occ Z.eq_dec pre 10%Z + 1))). rewrite <- !app_assoc.
  disp. apply displays_skip; [apply displays_blue|].
  apply displays_app; [apply displays_plain; intros [G | []]; destruct (no_esc_char u); congruence|]. apply displays_skip; [apply displays_reset|].
  disp. apply displays_app; [apply displays_plain; destruct uri; [now apply Hu | quiet]|].
  do 7 disp. apply bar_displays. disp.
  assert (Tail : displays (repeat 32%Z w ++ lit " " ++ bar u ++ nl) (repeat 32%Z w ++ lit " " ++ [ch_vbar (charset_of u)] ++ nl)).
  { do 2 disp. apply bar_displays. apply displays_plain. quiet. }
  apply displays_app; [|exact Tail]. clear Tail.
  destruct (nth_error (lines _) _) as [line|] eqn:E; [|constructor].
  assert (Hx : no_esc (chars line)).
  { destruct (shown_exists (before ++ lab ++ after) post) as (x & Hx).
    assert (G : before ++ lab ++ after <> [] \/ post <> []).
    { destruct (before ++ lab ++ after) eqn:E1; [|left; discriminate]. destruct post eqn:E2; [|right; discriminate]. exfalso.
      apply app_eq_nil in E1. destruct E1 as [-> E1]. apply app_eq_nil in E1. destruct E1 as [-> ->]. cbn [app] in *. rewrite !app_nil_r in *.
      destruct Hline as ([-> | (p & ->)] & _); [discriminate E|]. rewrite Forall_app in Hs. destruct Hs as [Hp _].
      rewrite encode_app in E. cbn in E. assert (K : nth_error (lines (encode p ++ [10%Z])) (count_occ Z.eq_dec (p ++ [10%Z]) 10%Z) <> None) by congruence.
      apply nth_error_Some in K. unfold lines in K. rewrite lines_count, count_feeds, count_occ_app in K by assumption. cbn in K. lia. }
    destruct (snippet_single r pre before lab after post Hs Hr Hl Hline u l uri x El Hend G Hx) as (_ & E2 & Hxs & _).
    rewrite E2 in E. injection E as <-. rewrite chars_encode by assumption. intros K. apply He.
    assert (K2 : In 27%Z (before ++ lab ++ after)).
    { destruct Hx as [[_ ->] | [-> _]]; [apply in_or_app; now left | assumption]. }
    rewrite !in_app_iff in *. tauto. }
  do 2 disp. apply bar_displays. do 5 disp. apply bar_displays. do 2 disp.
  apply displays_skip; [destruct Hc as [-> | (c & -> & Hc)]; [apply displays_red | exact Hc]|]. disp. apply displays_skip; [apply displays_reset|].
  apply displays_plain. destruct (lb_message l) as [msg|]; [|quiet]. intros K. rewrite !in_app_iff in K.
  destruct K as [K | [K | K]]; [vm_compute in K; lia | now apply (Hm msg) | vm_compute in K; lia].
Qed.

Lemma reads_full r text : reads r text -> rd_text_in r 0 (src_len (rd_src r)) = text.
Proof.
  intros [(Hv & Hl & _) Ht]. rewrite Hl, Ht; [apply substr_full | lia | lia | reflexivity | apply is_boundary_length].
Qed.

Lemma cat_both {A} (f g : A -> option (list Z)) l : Forall (fun a => exists x y, f a = Some x /\ g a = Some y /\ displays x y) l ->
  exists x y, cat_options (map f l) = Some x /\ cat_options (map g l) = Some y /\ displays x y.
Proof.
  induction 1 as [| a l (x & y & Ef & Eg & Hd) Hl (x' & y' & Ef' & Eg' & Hd')]; [exists [], []; repeat split; constructor|].
  cbn [map cat_options]. rewrite Ef, Eg, Ef', Eg'. exists (x ++ x'), (y ++ y'). repeat split. now apply displays_app.
Qed.

(** ** Whole reports *)
Lemma snippet_ends u m r full l uri out : snippet_plain u m r full l uri = Some out -> exists o, out = o ++ nl.
Proof.
  unfold snippet_plain. destruct (locate m r full l) as [p|]; [|discriminate]. intros H.
  apply (f_equal (fun o => match o with Some x => x | None => [] end)) in H. cbv beta iota zeta in H. rewrite <- H.
  match goal with |- exists o, ?a ++ ?b ++ ?c ++ ?d ++ ?e ++ ?f = _ => exists (a ++ b ++ c ++ d ++ e); now rewrite <- !app_assoc end.
Qed.

Lemma marks_embed a o b x k n : 0 < n -> marks (o ++ nl) x k n -> marks (a ++ nl ++ (o ++ nl) ++ b) x k n.
Proof.
  intros Hn (i & g1 & g2 & tail & H1 & H2 & H3). unfold nl in *. rewrite rows_feed in H1, H2.
  assert (Li : S i < length (rows o)).
  { assert (K : nth_error (rows o ++ rows []) (S i) <> None) by congruence. apply nth_error_Some in K. rewrite app_length in K. cbn in K.
    destruct (Nat.eq_dec (S i) (length (rows o))) as [E | E]; [exfalso | lia]. rewrite nth_error_app2 in H2 by lia.
    rewrite E, Nat.sub_diag in H2. cbn in H2. injection H2 as H2. destruct n as [| n]; [lia|]. symmetry in H2. apply app_eq_nil in H2.
    destruct H2 as [_ H2]. apply app_eq_nil in H2. destruct H2 as [_ H2]. discriminate. }
  rewrite nth_error_app1 in H1, H2 by lia.
  exists (length (rows a) + i), g1, g2, tail. rewrite <- app_assoc. cbn [app]. rewrite !rows_feed.
  split; [|split; [|exact H3]].
  - rewrite nth_error_app2 by lia. replace (length (rows a) + i - length (rows a)) with i by lia. rewrite nth_error_app1 by lia. exact H1.
  - rewrite nth_error_app2 by lia. replace (S (length (rows a) + i) - length (rows a)) with (S i) by lia. rewrite nth_error_app1 by lia. exact H2.
Qed.

Lemma render_marks u r text d l uri x k n : reads r text -> dg_labels d = [l] -> 0 < n ->
  (exists out, snippet_plain u (map_of text) r text l uri = Some out /\ marks out x k n) ->
  exists out, render_plain u r d uri = Some out /\ marks out x k n.
Proof.
  intros Hr Hd Hn (out & Ho & Hm). unfold render_plain. rewrite (from_source_spec r text Hr). change (LineMap (starts text) (length text)) with (map_of text).
  rewrite (reads_full r text Hr), Hd. cbn [map cat_options]. rewrite Ho. destruct (snippet_ends _ _ _ _ _ _ _ Ho) as (o & ->).
  eexists. split; [reflexivity|]. rewrite app_nil_r.
  assert (M := marks_embed (lit "[" ++ (match dg_code d with Some c => c | None => severity_name (dg_severity d) end) ++ lit "] " ++ dg_message d) o
    (match dg_help d with Some h => nl ++ lit "help: " ++ h ++ nl | None => [] end) x k n Hn Hm).
  rewrite <- !app_assoc in M. repeat rewrite <- app_assoc. exact M.
Qed.

Lemma chars_le cs : length cs <= length (encode cs).
Proof.
  induction cs as [| c cs IH]; [cbn; lia|]. cbn [encode length]. rewrite app_length, encode_char_length. assert (P := char_len_pos c). lia.
Qed.

Lemma underline_one text l : valid text -> lb_end l <= lb_start l + 1 -> lb_end l <= length text -> underline_len text l = 1.
Proof.
  intros Hv H1 H2. unfold underline_len. enough (get_count text (Nat.min (lb_start l) (length text)) (Nat.min (lb_end l) (length text)) <= 1) by lia.
  rewrite (Nat.min_l (lb_end l)) by assumption. unfold get_count, str_get.
  destruct (_ && _) eqn:E; [|lia]. rewrite !andb_true_iff in E. destruct E as [[[E1 E2] E3] E4].
  assert (V : valid (substr text (Nat.min (lb_start l) (length text)) (lb_end l))) by (apply valid_substr; auto; lia).
  destruct (valid_chars _ V) as [Ec _]. assert (L := chars_le (chars (substr text (Nat.min (lb_start l) (length text)) (lb_end l)))).
  rewrite Ec in L. rewrite substr_length in L by lia. lia.
Qed.

(** ** LSP positions *)
Lemma feeds_mono text a b : a <= b -> feeds_before text a <= feeds_before text b.
Proof.
  intros H. unfold feeds_before. replace (firstn b text) with (firstn a text ++ firstn (b - a) (skipn a text)).
  - rewrite count_occ_app. lia.
  - rewrite <- (firstn_skipn a text) at 3. destruct (le_lt_dec a (length text)).
    + rewrite firstn_app, firstn_length_le by assumption. rewrite (firstn_all2 (firstn a text)) by (rewrite firstn_length; lia). reflexivity.
    + rewrite firstn_all2 by lia. rewrite skipn_all2 by lia. now rewrite firstn_nil, !app_nil_r, firstn_all2 by lia.
Qed.
