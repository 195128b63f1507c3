(** Theorems about diagnostics and their emitters. *)
From Verif Require Import Base Utf8 Utf8Facts RopeModel RopeSpec RopeProofs CursorModel CursorSpec CursorProofs LineMapModel LineMapSpec LineMapProofs LineMapProps
  HiModel HiSpec HiProofs DiagModel DiagSpec DiagProofs.

(** The offset an error carries (errors/mod.rs:108-227). *)
Definition reported (k : error_kind) : option nat :=
  match k with
  | EIo | EOther => None
  | ESyntax o | EUnexpectedCharacter o | EUnexpectedToken o | EUnexpectedEof o | EExpectedToken o | EExpectedName o | ETrailingComma o => Some o
  end.

(** C57: a label lies within the source, is not reversed, and covers the reported offset if that is inside the source. *)
Theorem labels_inside : forall len k l, In l (error_labels len k) ->
  lb_start l <= lb_end l /\ lb_end l <= len /\
  exists o, reported k = Some o /\ (o < len -> lb_start l = o /\ o < lb_end l) /\ (len <= o -> lb_start l = len /\ lb_end l = len).
Proof.
  intros len k l H.
  assert (G : forall o, lb_start (here len o) <= lb_end (here len o) /\ lb_end (here len o) <= len /\
    ((o < len -> lb_start (here len o) = o /\ o < lb_end (here len o)) /\ (len <= o -> lb_start (here len o) = len /\ lb_end (here len o) = len))).
  { intros o. unfold here. cbn [lb_start lb_end]. lia. }
  destruct k as [| o | o | o | o | o | o | o |]; cbn in H; try contradiction; destruct H as [<- | []]; destruct (G o) as (G1 & G2 & G3);
    (split; [assumption|]; split; [assumption|]; exists o; split; [reflexivity | assumption]).
Qed.
Print Assumptions labels_inside.

Example labels_inside_case : error_labels 5 (ESyntax 3) = [Label (Some (lit "here")) 3 4 None] /\ error_labels 5 (ESyntax 9) = [Label (Some (lit "here")) 5 5 None].
Proof. split; reflexivity. Qed.

(** C92, except for an unexpected end of file: an error with an offset gets exactly one label. *)
Theorem positioned_labelled_partial : forall len k o, reported k = Some o -> k <> EUnexpectedEof o -> exists l, error_labels len k = [l].
Proof. intros len k o H N. destruct k; cbn in H; try discriminate; injection H as ->; try (eexists; reflexivity). congruence. Qed.
Print Assumptions positioned_labelled_partial.

(** C92 fails: an unexpected end of file carries its offset but gets no label. *)
Theorem positioned_labelled_refuted : exists k o, reported k = Some o /\ forall len, error_labels len k = [].
Proof. exists (EUnexpectedEof 7), 7. split; reflexivity. Qed.
Print Assumptions positioned_labelled_refuted.

(** An editor is then told the beginning of the file, whatever the file and the offset. *)
Theorem eof_reported_at_start : forall r text o code msg sev help, reads r text ->
  lsp_range r (Diagnostic code msg sev (error_labels (length text) (EUnexpectedEof o)) help) = Some ((0, 0), (0, 0)).
Proof. intros r text o code msg sev help Hr. unfold lsp_range. rewrite (from_source_spec r text Hr). reflexivity. Qed.
Print Assumptions eof_reported_at_start.

(** C93: for a label within one line, starting and ending on characters, carets lie exactly below the labelled characters
    (one caret for an empty label). *)
Theorem label_marked : forall u r pre before lab after post x d l uri,
  Forall is_scalar (pre ++ before ++ lab ++ after ++ post) -> reads r (encode (pre ++ before ++ lab ++ after ++ post)) ->
  (Z.of_nat (length (encode (pre ++ before ++ lab ++ after ++ post))) < 2 ^ 32)%Z ->
  line_between pre (before ++ lab ++ after) post -> before ++ lab ++ after <> [] \/ post <> [] ->
  shown_line (before ++ lab ++ after) post x ->
  dg_labels d = [l] -> lb_start l = length (encode (pre ++ before)) -> lb_end l = length (encode (pre ++ before ++ lab)) ->
  exists out, render_plain u r d uri = Some out /\ marks out x (length before) (Nat.max (length lab) 1).
Proof.
  intros u r pre before lab after post x d l uri Hs Hr Hl Hline Hn Hx Hd Ea Eb.
  eapply render_marks; [exact Hr | exact Hd | lia |].
  assert (U : underline_len (encode (pre ++ before ++ lab ++ after ++ post)) l = Nat.max (length lab) 1).
  { unfold underline_len. rewrite Ea, Eb. rewrite !encode_app, !app_length. rewrite !Nat.min_l by lia.
    assert (Hs2 := Hs). rewrite !Forall_app in Hs2. destruct Hs2 as (K1 & K2 & K3 & K4 & K5).
    assert (K := get_count_encode (pre ++ before) lab (after ++ post) ltac:(rewrite Forall_app; tauto) K3 ltac:(rewrite Forall_app; tauto)).
    rewrite !encode_app, !app_length, <- !app_assoc in K. rewrite Nat.add_assoc. now rewrite K. }
  rewrite <- U. apply snippet_single; try assumption.
  rewrite Eb, !encode_app, !app_length. lia.
Qed.
Print Assumptions label_marked.

(** C93: an error at a character other than a line feed, of whatever size, is marked by one caret below that character. *)
Theorem error_marked_partial : forall u r pre before c after post x k code msg sev help uri,
  let text := encode (pre ++ before ++ [c] ++ after ++ post) in
  Forall is_scalar (pre ++ before ++ [c] ++ after ++ post) -> reads r text -> (Z.of_nat (length text) < 2 ^ 32)%Z ->
  line_between pre (before ++ [c] ++ after) post -> shown_line (before ++ [c] ++ after) post x ->
  reported k = Some (length (encode (pre ++ before))) -> (forall o, k <> EUnexpectedEof o) ->
  exists out, render_plain u r (Diagnostic code msg sev (error_labels (length text) k) help) uri = Some out /\ marks out x (length before) 1.
Proof.
  intros u r pre before c after post x k code msg sev help uri text Hs Hr Hl Hline Hx Hk Hne.
  assert (Lt : length (encode (pre ++ before)) < length text).
  { unfold text. rewrite !encode_app, !app_length. cbn [encode]. rewrite app_nil_r, encode_char_length. assert (P := char_len_pos c). lia. }
  destruct (positioned_labelled_partial (length text) k _ Hk (Hne _)) as (l & El).
  destruct (labels_inside (length text) k l) as (H1 & H2 & o & Eo & H3 & _); [rewrite El; now left|]. assert (o = length (encode (pre ++ before))) by congruence. subst o.
  destruct (H3 Lt) as [Ea Eb].
  assert (Ee : lb_end l = lb_start l + 1).
  { assert (K : forall o, o < length text -> lb_end (here (length text) o) = lb_start (here (length text) o) + 1) by (intros o Ho; unfold here; cbn; lia).
    destruct k; cbn in El, Hk; try discriminate; injection El as <-; injection Hk as ->; now apply K. }
  eapply render_marks; [exact Hr | exact El | lia |].
  rewrite <- (underline_one text l); [| apply Hr | lia | lia].
  apply snippet_single; try assumption; [|left; destruct before; discriminate].
  rewrite Ee, Ea. rewrite !encode_app, !app_length. cbn [encode]. rewrite app_nil_r, encode_char_length. assert (P := char_len_pos c). lia.
Qed.
Print Assumptions error_marked_partial.

(** C93: an error at or past the end of a source whose last line is not empty is marked right after the last character. *)
Theorem end_marked_partial : forall u r pre before k o code msg sev help uri,
  let text := encode (pre ++ before) in
  Forall is_scalar (pre ++ before) -> reads r text -> (Z.of_nat (length text) < 2 ^ 32)%Z ->
  line_between pre before [] -> before <> [] ->
  reported k = Some o -> length text <= o -> (forall o, k <> EUnexpectedEof o) ->
  exists out, render_plain u r (Diagnostic code msg sev (error_labels (length text) k) help) uri = Some out /\ marks out before (length before) 1.
Proof.
  intros u r pre before k o code msg sev help uri text Hs Hr Hl Hline Hb Hk Ho Hne.
  destruct (positioned_labelled_partial (length text) k _ Hk (Hne _)) as (l & El).
  destruct (labels_inside (length text) k l) as (H1 & H2 & o' & Eo & _ & H3); [rewrite El; now left|]. assert (o' = o) by congruence. subst o'.
  destruct (H3 Ho) as [Ea Eb].
  eapply render_marks; [exact Hr | exact El | lia |].
  rewrite <- (underline_one text l); [| apply Hr | lia | lia].
  assert (S := snippet_single r pre before [] [] []). cbn [app] in S. rewrite !app_nil_r in S.
  apply S; try assumption; [rewrite Eb; unfold text; lia | now left | right; split; [reflexivity | congruence]].
Qed.
Print Assumptions end_marked_partial.

Definition report (text : str) (k : error_kind) : option (list Z) :=
  render_plain false (flat_reader text) (Diagnostic None (lit "bad") SevError (error_labels (length text) k) None) None.

Example error_marked_case : report (lit "a" ++ [10%Z] ++ lit "x = " ++ encode [233%Z] ++ lit "!" ++ [10%Z]) (EUnexpectedCharacter 6) = Some (
  lit "[error] bad" ++ nl ++
  lit "  / at <anonymous>:2:5" ++ nl ++
  lit "  |" ++ nl ++
  lit "2 | x = " ++ [233%Z] ++ lit "!" ++ nl ++
  lit "  |     ^ here" ++ nl ++
  lit "  |" ++ nl).
Proof. vm_compute. reflexivity. Qed.

(** C93 fails for a line feed: the report marks the first character of the next line instead. *)
Theorem error_marked_refuted : exists text o out,
  valid text /\ nth_error text o = Some 10%Z /\ report text (ESyntax o) = Some out /\
  text = lit "ab" ++ [10%Z] ++ lit "cd" /\ o = 2 /\ (forall n, 0 < n -> ~ marks out (lit "ab") 2 n) /\
  exists i, nth_error (rows out) i = Some (lit "2 | |cd") /\ nth_error (rows out) (S i) = Some (lit "  | |^ here").
Proof.
  exists (lit "ab" ++ [10%Z] ++ lit "cd"), 2. eexists. split; [apply validb_valid; vm_compute; reflexivity|]. split; [reflexivity|].
  split; [vm_compute; reflexivity|]. split; [reflexivity|]. split; [reflexivity|]. split.
  - intros n Hn (i & g1 & g2 & tail & H1 & H2 & H3 & H4 & H5).
    assert (In 94%Z (g2 ++ repeat 32%Z 2 ++ repeat 94%Z n ++ tail)) by (destruct n as [| n]; [lia|]; rewrite !in_app_iff; right; right; left; now left).
    assert (B : i = 4); [|subst i].
    { clear -H H2. revert H H2. generalize (g2 ++ repeat 32%Z 2 ++ repeat 94%Z n ++ tail). intros L H H2.
      do 9 (destruct i as [| i]; [try reflexivity; exfalso; vm_compute in H2; first [discriminate H2 | injection H2 as <-; vm_compute in H; first [contradiction | lia]]|]).
      exfalso. vm_compute in H2. destruct i; discriminate H2. }
    vm_compute in H2.
    clear -H1. vm_compute in H1. injection H1 as H1. apply (f_equal (@rev Z)) in H1. rewrite rev_app_distr in H1. discriminate H1.
  - exists 4. split; vm_compute; reflexivity.
Qed.
Print Assumptions error_marked_refuted.

(** C93 fails at the end of a file that ends with a line feed: nothing is marked. *)
Theorem end_marked_refuted : exists text out,
  text = lit "ab" ++ [10%Z] /\ report text (ESyntax (length text)) = Some out /\ ~ In 94%Z out /\ forall i, nth_error (rows out) i <> Some (lit "2 | ").
Proof.
  exists (lit "ab" ++ [10%Z]). eexists. split; [reflexivity|]. split; [vm_compute; reflexivity|]. split; [intros H; vm_compute in H; lia|].
  intros i H. do 6 (destruct i as [| i]; [vm_compute in H; discriminate H|]). destruct i; discriminate H.
Qed.
Print Assumptions end_marked_refuted.

(** C94 fails: under the last line of a label over several lines the carets lie after the labelled text. *)
Theorem long_label_marked_refuted : exists text l out,
  text = lit "ab" ++ [10%Z] ++ lit "cde" /\ lb_start l = 1 /\ lb_end l = 4 /\
  render_plain false (flat_reader text) (Diagnostic None (lit "bad") SevError [l] None) None = Some out /\
  (forall n, 0 < n -> ~ marks out (lit "cde") 0 n) /\
  exists i, nth_error (rows out) i = Some (lit "2 | |cde") /\ nth_error (rows out) (S i) = Some (lit "  | |_^").
Proof.
  exists (lit "ab" ++ [10%Z] ++ lit "cde"), (Label None 1 4 None). eexists.
  split; [reflexivity|]. split; [reflexivity|]. split; [reflexivity|]. split; [vm_compute; reflexivity|]. split.
  - intros n Hn (i & g1 & g2 & tail & H1 & H2 & H3 & H4 & H5).
    assert (In 94%Z (g2 ++ repeat 32%Z 0 ++ repeat 94%Z n ++ tail)) by (destruct n as [| n]; [lia|]; rewrite !in_app_iff; right; right; left; now left).
    assert (B : i = 4); [|subst i].
    { clear -H H2. revert H H2. generalize (g2 ++ repeat 32%Z 0 ++ repeat 94%Z n ++ tail). intros L H H2.
      do 9 (destruct i as [| i]; [try reflexivity; exfalso; vm_compute in H2; first [discriminate H2 | injection H2 as <-; vm_compute in H; first [contradiction | lia]]|]).
      exfalso. vm_compute in H2. destruct i; discriminate H2. }
    vm_compute in H2.
    vm_compute in H1. injection H1 as H1.
    assert (L := f_equal (@length Z) H1). rewrite app_length in L. cbn [length] in L.
    injection H2 as H2. destruct n as [| n]; [lia|].
    do 5 (destruct g1 as [| ? g1]; [cbn in L; lia|]). destruct g1; [|cbn in L; lia].
    do 5 (destruct g2 as [| ? g2]; [discriminate H3|]). destruct g2; [|discriminate H3].
    cbn [app] in H2. injection H2. intros. discriminate.
  - exists 4. split; vm_compute; reflexivity.
Qed.
Print Assumptions long_label_marked_refuted.

(** C96: for diagnostics whose labels lie within lines and that hold no escape characters, the console output is the plain
    output with colour sequences added. *)
Theorem console_is_plain_partial : forall u r cs d uri,
  Forall is_scalar cs -> no_esc cs -> reads r (encode cs) -> (Z.of_nat (length (encode cs)) < 2 ^ 32)%Z ->
  Forall (fun l => one_line cs l /\ opt_no_esc (lb_message l) /\ lb_color l = None) (dg_labels d) ->
  opt_no_esc uri -> opt_no_esc (dg_code d) -> no_esc (dg_message d) -> opt_no_esc (dg_help d) ->
  exists c p, render_console u r d uri = Some c /\ render_plain u r d uri = Some p /\ forall x, displays c x <-> x = p.
Proof.
  intros u r cs d uri Hs He Hr Hl Hd Hu Hc Hm Hh.
  unfold render_console, render_plain. rewrite (from_source_spec r _ Hr). change (LineMap (starts (encode cs)) (length (encode cs))) with (map_of (encode cs)).
  rewrite (reads_full r _ Hr).
  destruct (cat_both (fun l => snippet_console u (map_of (encode cs)) r (encode cs) l uri) (fun l => snippet_plain u (map_of (encode cs)) r (encode cs) l uri) (dg_labels d)) as (x & y & -> & -> & Hxy).
  { eapply Forall_impl; [|exact Hd]. cbn beta. intros l (H1 & H2 & H3). apply console_single; try assumption. now left. }
  do 2 eexists. split; [reflexivity|]. split; [reflexivity|].
  match goal with |- forall x, displays ?c x <-> x = ?p => enough (G : displays c p) by (intros z; split; [intros Hz; exact (displays_fun _ _ Hz _ G) | intros ->; exact G]) end.
  apply displays_app.
  - apply displays_skip; [apply displays_severity|]. disp.
    apply displays_app; [apply displays_plain; destruct (dg_code d); [now apply Hc | destruct (dg_severity d); quiet]|].
    change (lit "] ") with (lit "]" ++ lit " "). rewrite <- !app_assoc. disp. apply displays_skip; [apply displays_reset|]. do 2 disp. apply displays_plain. quiet.
  - apply displays_app; [assumption|]. destruct (dg_help d) as [h|]; [|constructor]. assert (Nh : no_esc h) by now apply Hh.
    disp. change ([27%Z] ++ lit "[36;1mhelp" ++ reset ++ lit ": " ++ h ++ nl) with ((27%Z :: 91%Z :: lit "36;1" ++ [109%Z]) ++ lit "help" ++ reset ++ lit ": " ++ h ++ nl).
    apply displays_skip; [apply codeb; reflexivity|]. change (lit "help: ") with (lit "help" ++ lit ": "). rewrite <- !app_assoc.
    disp. apply displays_skip; [apply displays_reset|]. do 2 disp. apply displays_plain. quiet.
Qed.
Print Assumptions console_is_plain_partial.

Example console_case : one_line (lit "let x") (Label (Some (lit "here")) 4 5 None) /\
  render_console false (flat_reader (lit "let x")) (Diagnostic None (lit "bad") SevError [Label (Some (lit "here")) 4 5 None] None) None <> None.
Proof.
  split; [|vm_compute; discriminate]. exists [], (lit "let "), (lit "x"), [], []. split; [reflexivity|]. split.
  - split; [now left|]. split; [intros H; vm_compute in H; lia | now left].
  - split; [reflexivity|]. vm_compute. lia.
Qed.

(** C96 fails for labels over several lines: the console output has extra blanks. *)
Theorem console_is_plain_refuted : exists text d c p, valid text /\ no_esc text /\
  render_console true (flat_reader text) d None = Some c /\ render_plain true (flat_reader text) d None = Some p /\ ~ displays c p.
Proof.
  exists (lit "a" ++ [10%Z] ++ lit "b"), (Diagnostic None (lit "m") SevError [Label None 0 3 None] None). do 2 eexists.
  split; [apply validb_valid; vm_compute; reflexivity|]. split; [intros H; vm_compute in H; lia|].
  split; [vm_compute; reflexivity|]. split; [vm_compute; reflexivity|].
  intros H.
  assert (K : forall c x, displays c x -> length (filter (fun z => (z =? 32)%Z) c) = length (filter (fun z => (z =? 32)%Z) x)).
  { clear. induction 1 as [| codes r x F H IH | c r x N H IH]; [reflexivity | |].
    - cbn [filter]. change (27 =? 32)%Z with false. change (91 =? 32)%Z with false. cbv iota. rewrite filter_app, app_length.
      cbn [filter]. change (109 =? 32)%Z with false. cbv iota. rewrite IH. enough (filter (fun z => (z =? 32)%Z) codes = []) as -> by reflexivity.
      clear -F. induction F as [| a l Ha Hl IHl]; [reflexivity|]. cbn [filter]. destruct (Z.eqb_spec a 32); [lia | assumption].
    - cbn [filter]. destruct (c =? 32)%Z; cbn [length]; now rewrite IH. }
  apply K in H. vm_compute in H. discriminate.
Qed.
Print Assumptions console_is_plain_refuted.

(** C95, for a label that starts and ends on characters: the positions told to an editor are in order and convert back to
    the label. *)
Theorem lsp_range_partial : forall r text d l, reads r text -> (Z.of_nat (length text) < 2 ^ 32)%Z ->
  hd_error (dg_labels d) = Some l -> lb_start l <= lb_end l -> is_boundary text (lb_start l) = true -> is_boundary text (lb_end l) = true ->
  exists m p q, from_source r = Some m /\ lsp_range r d = Some (p, q) /\ pos_le p q /\
    line_col_to_offset m r (fst p) (snd p) = lb_start l /\ line_col_to_offset m r (fst q) (snd q) = lb_end l.
Proof.
  intros r text d l Hr Hlen Hd Hle Hb1 Hb2. assert (Hm := from_source_spec r text Hr).
  destruct (line_col_round_trip_partial r text _ _ Hr Hm Hlen Hb1) as (l1 & c1 & s1 & E1 & O1 & S1 & C1 & R1).
  destruct (line_col_round_trip_partial r text _ _ Hr Hm Hlen Hb2) as (l2 & c2 & s2 & E2 & O2 & S2 & C2 & R2).
  exists (LineMap (starts text) (length text)), (l1, c1), (l2, c2). split; [assumption|].
  split; [unfold lsp_range; rewrite Hm; destruct (dg_labels d) as [| l' ?]; [discriminate|]; injection Hd as ->; now rewrite E1, E2|].
  split; [|split; assumption]. unfold pos_le. cbn [fst snd]. destruct O1 as (F1 & Hs1 & B1 & _). destruct O2 as (F2 & Hs2 & _ & _).
  assert (M := feeds_mono text _ _ Hle). destruct (Nat.eq_dec l1 l2) as [E | E]; [right | left; lia]. split; [assumption|].
  assert (s1 = s2) by congruence. subst s2. assert (Hv : valid text) by apply Hr.
  assert (Bs : is_boundary text s1 = true) by (apply begins_boundary; assumption).
  assert (Hv1 : valid (substr text s1 (lb_start l))) by now apply valid_substr.
  assert (Hv2 : valid (substr text (lb_start l) (lb_end l))) by now apply valid_substr.
  destruct (valid_chars _ Hv1) as [V1 V1']. destruct (valid_chars _ Hv2) as [V2 V2'].
  rewrite C1, C2. rewrite (substr_split text s1 (lb_start l) (lb_end l)) by assumption.
  assert (E' : chars (substr text s1 (lb_start l) ++ substr text (lb_start l) (lb_end l)) = chars (substr text s1 (lb_start l)) ++ chars (substr text (lb_start l) (lb_end l))).
  { rewrite <- V1, <- V2 at 1. rewrite <- encode_app. apply chars_encode. apply Forall_app. now split. }
  rewrite E', utf16_app. lia.
Qed.
Print Assumptions lsp_range_partial.

(** C95 fails: the range of an error at a character of several bytes ends before it starts. *)
Theorem lsp_range_refuted : exists text o p q, valid text /\ is_boundary text o = true /\
  lsp_range (flat_reader text) (Diagnostic None [] SevError (error_labels (length text) (EUnexpectedCharacter o)) None) = Some (p, q) /\ ~ pos_le p q.
Proof.
  exists (encode [97; 233]%Z), 1, (0, 1), (0, 0). split; [apply validb_valid; vm_compute; reflexivity|]. split; [reflexivity|].
  split; [vm_compute; reflexivity|]. intros [H | [_ H]]; cbn in H; lia.
Qed.
Print Assumptions lsp_range_refuted.
