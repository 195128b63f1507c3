(** Theorems about the pretty printer (C42-C46, C80). *)
From Verif Require Import Base Utf8 PrettyModel PrettySpec PrettyProofs.

(** What is printed, completely: a document has exactly one layout; the output is its lines, each trimmed if
    asked for, joined by the line ending, and a final line ending if asked for and missing. *)
Theorem printed_lines cfg d : exists ps c ls,
  (forall ps' c', lays (max_width cfg) (indent_size cfg) 0 false 0 d ps' c' <-> ps' = ps /\ c' = c) /\
  Forall2 (fun l t => if trim_trailing_whitespace cfg then rtrimmed l t else t = l)
    (lines_of (indent_text cfg) [] ps) ls /\
  let body := joined (line_ending_string cfg) ls in
  (insert_final_newline cfg = true /\ body <> [] /\ ~ ends_in_lf body -> print cfg d = body ++ line_ending_string cfg) /\
  (insert_final_newline cfg = false \/ body = [] \/ ends_in_lf body -> print cfg d = body).
Proof.
  destruct (print_spec cfg d) as (ps & c & L & E).
  exists ps, c, (map (trimf cfg) (lines_of (indent_text cfg) [] ps)). split; [|split; [|split]].
  - intros ps' c'. split; [|intros (-> & ->); exact L]. intros L'. destruct (lays_det (max_width cfg) (indent_size cfg)) as (D & _).
    exact (D _ _ _ _ _ _ L _ _ L').
  - generalize (lines_of (indent_text cfg) [] ps). induction l as [|l ls IH]; constructor; [|exact IH].
    destruct (trim_trailing_whitespace cfg) eqn:Et; [now apply trimf_rtrimmed|]. unfold trimf. now rewrite Et.
  - intros (Hi & Hne & Hl). rewrite E. unfold finish. rewrite Hi.
    destruct (is_empty _) eqn:E1; [apply is_empty_spec in E1; contradiction|].
    destruct (ends_with_lf _) eqn:E2; [apply ends_with_lf_spec in E2; contradiction|]. reflexivity.
  - intros Hc. rewrite E. unfold finish. destruct Hc as [-> |[Hb|Hb]]; [reflexivity| |].
    + apply is_empty_spec in Hb. rewrite Hb. now rewrite andb_false_r.
    + apply ends_with_lf_spec in Hb. rewrite Hb. now rewrite andb_false_r.
Qed.
Print Assumptions printed_lines.

Definition cfg80 (w : nat) (trim final : bool) : config := Config (repeat 32%Z 2) Unix w final trim 2.
Definition call (args : list doc) : doc :=
  Group (Concat [Text (lit "f("); Indent (Concat [SoftLine; join args (Concat [Text (lit ","); SoftLineSpace])]); SoftLine; Text (lit ")")]).
Example printed_flat : print (cfg80 20 true true) (call [Text (lit "aa"); Text (lit "bb")]) = lit "f(aa, bb)" ++ [10%Z].
Proof. reflexivity. Qed.
Example printed_broken : print (cfg80 8 true true) (call [Text (lit "aa"); Text (lit "bb")]) =
  lit "f(" ++ [10%Z] ++ lit "  aa," ++ [10%Z] ++ lit "  bb" ++ [10%Z] ++ lit ")" ++ [10%Z].
Proof. reflexivity. Qed.

(** C42, without trimming: the texts in order, with gaps of spaces, indentation and line endings. *)
Theorem texts_woven_partial cfg d : trim_trailing_whitespace cfg = false ->
  woven (indent_text cfg) (line_ending_string cfg) (texts d) (print cfg d).
Proof.
  intros Ht. destruct (print_spec cfg d) as (ps & c & L & ->).
  rewrite (proj1 (lays_texts _ _) _ _ _ _ _ _ L).
  replace (map (trimf cfg) (lines_of (indent_text cfg) [] ps)) with (lines_of (indent_text cfg) [] ps).
  - destruct (lines_woven (indent_text cfg) (line_ending_string cfg) ps []) as (r & -> & W). cbn [app].
    unfold finish. destruct (_ && _); [|exact W]. apply woven_tail; [exact W|apply gap1_end].
  - symmetry. rewrite <- map_id. apply map_ext. intros s. unfold trimf. now rewrite Ht.
Qed.
Print Assumptions texts_woven_partial.

(** C42, for every configuration whose indentation is blank: no visible character is lost, added or moved. *)
Theorem visible_content_kept cfg d : ink (indent_text cfg) = [] ->
  ink (print cfg d) = ink (concat (texts d)).
Proof.
  intros Hi. destruct (print_spec cfg d) as (ps & c & L & ->).
  rewrite (proj1 (lays_texts _ _) _ _ _ _ _ _ L), ink_finish, ink_lines by exact Hi. reflexivity.
Qed.
Print Assumptions visible_content_kept.

(** Both built-in indentation styles are blank, and the declared size of spaces is their length. *)
Theorem indent_styles_blank cfg s : ink (indent_text (with_indent_style cfg s)) = [] /\ plain (indent_text (with_indent_style cfg s)) /\
  (forall n, s = Spaces n -> length (indent_text (with_indent_style cfg s)) = indent_size (with_indent_style cfg s)).
Proof.
  destruct s as [n|]; simpl.
  - split; [|split].
    + induction n; [reflexivity|]. exact IHn.
    + intros Hx. apply repeat_spec in Hx. discriminate.
    + intros m _. apply repeat_length.
  - split; [reflexivity|]. split; [|discriminate]. intros [Hx|[]]. discriminate.
Qed.
Print Assumptions indent_styles_blank.

(** C42, refuted with trimming: blanks at the end of a text disappear. *)
Theorem texts_woven_refuted : exists d, let cfg := default_config in
  print cfg d = lit "a" ++ [10%Z] ++ lit "b" ++ [10%Z] /\
  ~ woven (indent_text cfg) (line_ending_string cfg) (texts d) (print cfg d).
Proof.
  exists (Concat [Text (lit "a "); HardLine; Text (lit "b")]). split; [reflexivity|].
  intros W. assert (Hin : In 32%Z (print default_config (Concat [Text (lit "a "); HardLine; Text (lit "b")]))).
  { remember (print _ _) as out eqn:Eout in W |- *. clear Eout. inversion W as [|t ts g o Hg Ho Et Eo]; subst.
    rewrite !in_app_iff. right. left. simpl. auto. }
  vm_compute in Hin. repeat (destruct Hin as [Hin|Hin]; [discriminate|]). exact Hin.
Qed.
Print Assumptions texts_woven_refuted.

Example content_nontrivial : ink (concat (texts (call [Text (lit "aa"); Text (lit "bb")]))) = lit "f(aa,bb)" /\
  ink (indent_text default_config) = [].
Proof. split; reflexivity. Qed.

(** C43: a group that fits is put on one line, whatever groups it contains, and ends within the width;
    one that does not fit breaks at each of its own line positions. *)
Theorem fitting_group_on_one_line max isz n b c d ps c' : lays max isz n b c (Group d) ps c' ->
  (fits max c d -> breaks ps = 0 /\ (forall ind cur, lines_of ind cur ps = [cur ++ flat d]) /\
     c' = c + length (flat d) /\ c' <= max) /\
  (~ fits max c d -> soft_lines d <= breaks ps).
Proof.
  intros L. split; intros Hf.
  - destruct (lays_group_inv _ _ _ _ _ _ _ _ L) as [(F & L')|(F & L')]; [|contradiction].
    destruct (proj1 (lays_flat max isz) _ _ _ _ _ _ L' eq_refl Hf) as (B & F' & ->).
    split; [assumption|]. split; [|split; [reflexivity|destruct Hf; lia]].
    intros ind cur. rewrite lines_single by assumption. now rewrite F'.
  - destruct (lays_group_inv _ _ _ _ _ _ _ _ L) as [(F & L')|(F & L')]; [contradiction|].
    assert (H := proj1 (lays_forced max isz) _ _ _ _ _ _ L'). simpl in H. lia.
Qed.
Print Assumptions fitting_group_on_one_line.

(** C43, for a whole document: a group that fits prints as its one line. *)
Theorem fitting_document_printed_flat cfg d : fits (max_width cfg) 0 d ->
  exists l, (if trim_trailing_whitespace cfg then rtrimmed (flat d) l else l = flat d) /\
    (print cfg (Group d) = l \/ insert_final_newline cfg = true /\ print cfg (Group d) = l ++ line_ending_string cfg).
Proof.
  intros Hf. destruct (print_spec cfg (Group d)) as (ps & c & L & E).
  destruct (proj1 (fitting_group_on_one_line _ _ _ _ _ _ _ _ L) Hf) as (_ & HL & _). rewrite (HL _ []) in E.
  exists (trimf cfg (flat d)). split.
  - destruct (trim_trailing_whitespace cfg) eqn:Et; [now apply trimf_rtrimmed|]. unfold trimf. now rewrite Et.
  - rewrite E. unfold finish. cbn [map joined app]. destruct (insert_final_newline cfg); [|left; reflexivity].
    cbn [andb]. destruct (_ && _); [right; split; reflexivity|left; reflexivity].
Qed.
Print Assumptions fitting_document_printed_flat.

(** C43: the line a fitting group ends on is within the width, if texts before it have no line feed and the
    indentation is as wide as declared.  Widths are bytes. *)
Theorem fitting_group_within_width cfg d0 ps0 c0 d ps c : length (indent_text cfg) = indent_size cfg ->
  lays (max_width cfg) (indent_size cfg) 0 false 0 d0 ps0 c0 -> fits (max_width cfg) c0 d ->
  lays (max_width cfg) (indent_size cfg) 0 false c0 (Group d) ps c ->
  exists dn l, lines_of (indent_text cfg) [] (ps0 ++ ps) = dn ++ [l ++ flat d] /\ length (l ++ flat d) <= max_width cfg.
Proof.
  intros Hi L0 Hf L. destruct (proj1 (lays_column _ _ _ Hi) _ _ _ _ _ _ L0 [] eq_refl) as (dn & l & E & El).
  destruct (lines_of_app cfg ps0 [] ps) as (dn' & l' & E1 & E2). rewrite E in E1. apply app_inj_tail in E1. destruct E1 as (-> & ->).
  exists dn', l'. destruct (proj1 (fitting_group_on_one_line _ _ _ _ _ _ _ _ L) Hf) as (_ & HL & _).
  rewrite E2, HL. split; [reflexivity|]. rewrite app_length. destruct Hf. lia.
Qed.
Print Assumptions fitting_group_within_width.

Example fits_case : fits 9 0 (Concat [Text (lit "a("); SoftLine; Group (Concat [Text (lit "b,"); Line; Text (lit "c")]); Text (lit ")")]).
Proof. split; [apply hardb_false; reflexivity|]. vm_compute. lia. Qed.
Example fits_not : ~ fits 6 0 (Concat [Text (lit "a("); SoftLine; Group (Concat [Text (lit "b,"); Line; Text (lit "c")]); Text (lit ")")]).
Proof. intros (_ & H). vm_compute in H. lia. Qed.

(** C43, refuted for widths in characters: three characters are broken at a width of four. *)
Theorem character_width_refuted : exists cfg d, ~ has_hard d /\
  flat d = encode [233; 233; 120]%Z /\ max_width cfg = 4 /\
  print cfg (Group d) = encode [233; 233]%Z ++ [10%Z] ++ lit "x".
Proof.
  exists (cfg80 4 false false), (Concat [Text (encode [233; 233]%Z); SoftLine; Text (lit "x")]).
  split; [apply hardb_false; reflexivity|]. repeat split.
Qed.
Print Assumptions character_width_refuted.

(** C43, refuted after a text with a line feed: the column is not reset, so a group that would fit on the new
    line is broken. *)
Theorem multiline_text_width_refuted : exists cfg d0 d, ~ has_hard d /\
  flat d = lit "cd" /\ max_width cfg = 5 /\
  print cfg (Concat [Text d0; Group d]) = lit "aaaa" ++ [10%Z] ++ lit "bc" ++ [10%Z] ++ lit "d".
Proof.
  exists (cfg80 5 false false), (lit "aaaa" ++ [10%Z] ++ lit "b"), (Concat [Text (lit "c"); SoftLine; Text (lit "d")]).
  split; [apply hardb_false; reflexivity|]. repeat split.
Qed.
Print Assumptions multiline_text_width_refuted.

(** C44: every hard break, and every line position of every group around one, starts a new line. *)
Theorem hard_breaks_propagate cfg d : forced d <= lf_count (print cfg d).
Proof.
  destruct (print_spec cfg d) as (ps & c & L & ->).
  assert (H := proj1 (lays_forced _ _) _ _ _ _ _ _ L). simpl in H.
  eapply Nat.le_trans; [|apply lf_finish]. eapply Nat.le_trans; [|apply lf_lines]. lia.
Qed.
Print Assumptions hard_breaks_propagate.

(** C44, in the layout: a group with a hard break anywhere inside breaks at all its own positions, wherever
    it starts. *)
Theorem hard_break_breaks_group max isz n b c d ps c' : has_hard d -> lays max isz n b c (Group d) ps c' ->
  lays max isz n true c d ps c' /\ soft_lines d < breaks ps.
Proof.
  intros Hh L.
  destruct (lays_group_inv _ _ _ _ _ _ _ _ L) as [(F & L')|(F & L')]; [now destruct F|].
  split; [assumption|]. assert (H := proj1 (lays_forced max isz) _ _ _ _ _ _ L'). simpl in H.
  assert (Hf : 0 < forced d); [|lia]. clear -Hh. induction Hh; simpl; try lia.
  - apply in_split in H. destruct H as (l1 & l2 & ->). rewrite map_app, list_sum_app. simpl. fold (list_sum (map forced l2)). lia.
Qed.
Print Assumptions hard_break_breaks_group.

Example forced_case : let d := Group (Concat [Text (lit "a"); SoftLine; Group (Concat [Text (lit "b"); Line; Indent (Concat [HardLine; Text (lit "c")])])]) in
  has_hard d /\ forced d = 3 /\ print (cfg80 80 true false) d =
    lit "a" ++ [10%Z] ++ lit "b" ++ [10%Z; 10%Z] ++ lit "  c".
Proof. split; [apply hardb_spec; reflexivity|]. split; reflexivity. Qed.

(** C45, for texts without line feeds: with trimming, nothing before a line ending nor the end is blank. *)
Theorem no_trailing_blanks_partial cfg d : trim_trailing_whitespace cfg = true ->
  Forall plain (texts d) -> plain (indent_text cfg) ->
  (forall a b, print cfg d = a ++ line_ending_string cfg ++ b -> ~ exists t c, a = t ++ [c] /\ blank c) /\
  ~ exists t c, print cfg d = t ++ [c] /\ blank c.
Proof.
  intros Ht Hp Hi. destruct (print_spec cfg d) as (ps & c & L & ->).
  rewrite (proj1 (lays_texts _ _) _ _ _ _ _ _ L) in Hp.
  set (ls := map (trimf cfg) (lines_of (indent_text cfg) [] ps)).
  assert (Hpl : Forall plain ls).
  { apply Forall_map. eapply Forall_impl; [|apply lines_plain; [exact Hi|exact Hp|intros []]]. intros s. apply trimf_plain. }
  assert (Hnb : Forall no_blank_end ls).
  { apply Forall_map. apply Forall_forall. intros s _. now apply trimf_no_blank. }
  unfold finish. destruct (_ && _) eqn:Eb.
  - assert (Ej : joined (line_ending_string cfg) ls ++ line_ending_string cfg = joined (line_ending_string cfg) (ls ++ [[]])).
    { assert (Hne : ls <> []) by (unfold ls; destruct (lines_of _ [] ps) eqn:E; [now apply lines_of_ne in E|discriminate]).
      now rewrite joined_snoc_nil. }
    rewrite Ej.
    assert (Hpl' : Forall plain (ls ++ [[]])) by (apply Forall_app; split; [assumption|constructor; [intros []|constructor]]).
    assert (Hnb' : Forall no_blank_end (ls ++ [[]])).
    { apply Forall_app; split; [assumption|]. constructor; [|constructor]. intros (t & x & E & _). destruct t; discriminate. }
    split; [intros a b E; eapply joined_no_blank; eassumption|now apply joined_end_no_blank].
  - split; [intros a b E; eapply joined_no_blank; eassumption|now apply joined_end_no_blank].
Qed.
Print Assumptions no_trailing_blanks_partial.

Example trailing_case : print default_config (Indent (Concat [Text (lit "a "); HardLine; Text [9%Z]; HardLine; Text (lit "b"); Line])) =
  lit "a" ++ [10; 10]%Z ++ lit "    b" ++ [10%Z].
Proof. reflexivity. Qed.

(** C45, refuted: a line inside a text keeps its trailing blanks. *)
Theorem no_trailing_blanks_refuted : exists d a b, print default_config d = (a ++ [32%Z]) ++ line_ending_string default_config ++ b.
Proof.
  exists (Text (lit "a " ++ [10%Z] ++ lit "b")), (lit "a"), (lit "b" ++ [10%Z]). reflexivity.
Qed.
Print Assumptions no_trailing_blanks_refuted.

(** C46: with final newlines enabled non-empty output ends with a line feed, and what is added is exactly the
    line ending, only when missing. *)
Theorem final_newline cfg d : let off := Config (indent_text cfg) (line_end cfg) (max_width cfg) false (trim_trailing_whitespace cfg) (indent_size cfg) in
  insert_final_newline cfg = true ->
  (print cfg d <> [] -> ends_in_lf (print cfg d)) /\
  (print off d = [] \/ ends_in_lf (print off d) -> print cfg d = print off d) /\
  (print off d <> [] /\ ~ ends_in_lf (print off d) -> print cfg d = print off d ++ line_ending_string cfg).
Proof.
  intros off Hi.
  assert (Hr : forall d b p, render off d b p = render cfg d b p) by reflexivity.
  unfold print. rewrite Hr. set (o := output _). unfold finalize. rewrite Hi.
  change (insert_final_newline off) with false. change (trim_trailing_whitespace off) with (trim_trailing_whitespace cfg).
  cbn [andb]. set (o' := if trim_trailing_whitespace cfg then _ else _).
  destruct (is_empty o') eqn:E1; [|destruct (ends_with_lf o') eqn:E2]; cbn [negb andb].
  - apply is_empty_spec in E1. rewrite E1. split; [congruence|]. split; [reflexivity|]. intros (H & _). congruence.
  - apply ends_with_lf_spec in E2. split; [auto|]. split; [reflexivity|]. intros (_ & H). contradiction.
  - split; [|split; [|reflexivity]].
    + intros _. destruct (ending_lf cfg) as (e & ->). exists (o' ++ e). now rewrite app_assoc.
    + intros [H|H]; [apply is_empty_spec in H; congruence|apply ends_with_lf_spec in H; congruence].
Qed.
Print Assumptions final_newline.

Example final_newline_cases :
  print (Config [] Windows 10 true false 0) (Text (lit "a")) = lit "a" ++ [13; 10]%Z /\
  print default_config (Concat [Text (lit "a"); HardLine]) = lit "a" ++ [10%Z] /\ print default_config Line = [].
Proof. repeat split. Qed.

(** C80, refuted: [Line] "forces a line break", and the documented example says so; it prints a space. *)
Theorem line_forces_break_refuted : exists d, d = Concat [Text (lit "hello"); Line; Text (lit "world")] /\
  print default_config d = lit "hello world" ++ [10%Z] /\
  print default_config (Group d) = lit "hello world" ++ [10%Z].
Proof. eexists. split; [reflexivity|]. split; reflexivity. Qed.
Print Assumptions line_forces_break_refuted.
