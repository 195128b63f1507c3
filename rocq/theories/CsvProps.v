(** Theorems about the CSV lexer and parser. *)
From Verif Require Import Base Utf8 Utf8Facts ScanSpec CursorModel CursorSpec CursorProofs LexModel LexSpec LexProofs LexLoopProofs.
From Verif Require Import TreeModel TreeSpec ParserModel ParserSpec ParserProofs.
From Verif Require Import JsonLangSpec JsonLexProofs LangModel LangSpec LangLexProofs LangParseProofs CsvModel CsvSpec CsvProofs CsvTableProofs.

(** ** The tokens of a text, for every separator and quote *)
Theorem csv_tokens : forall src text cfg cs, serves src text -> text = encode cs -> Forall is_scalar cs ->
  exists ps, csv_lex src cfg = Some (spans 0 ps ++ [Token CEof (length text) (length text)]) /\
    cut (csv_token cfg) cs ps /\ text_of_pieces ps = cs /\ (forall ps', cut (csv_token cfg) cs ps' -> ps' = ps).
Proof.
  intros src text cfg cs Hs -> F. destruct (csv_lex_cut src (encode cs) cfg Hs cs (all_reads cs F)) as (ps & C & E). exists ps. split; [assumption|]. split; [assumption|]. split; [now apply cut_text in C|]. intros ps' C'. now apply (csv_cut_unique cfg cs).
Qed.
Print Assumptions csv_tokens.

Example csv_tokens_case : csv_lex (flat_source (lit "ab, ""c""""d""")) csv_default =
  Some [Token CField 0 2; Token CComma 2 3; Token CWhitespace 3 4; Token CField 4 10; Token CEof 10 10].
Proof. vm_compute. reflexivity. Qed.

(** ** The separator *)
Definition is_quoted (cfg : csv_config) (s : list Z) : Prop := exists b, s = cs_quote cfg :: b.

(** Apart from quoted fields a separator is a token of its own, unless it is a blank or ends lines. *)
Theorem csv_separator_partial : forall cfg cs ps k s, ~ blank (cs_sep cfg) -> ~ line_char (cs_sep cfg) -> cut (csv_token cfg) cs ps ->
  In (k, s) ps -> In (cs_sep cfg) s -> ~ is_quoted cfg s -> k = Some CComma /\ s = [cs_sep cfg].
Proof.
  intros cfg cs ps k s B L C. induction C as [| k' s' r ps N T C IH]; intros I' Is Q; [contradiction|]. destruct I' as [E | I']; [|now apply IH]. injection E as -> ->. clear IH C.
  destruct T as [s r F H | r | r | r H | r B' L' | b r Q' D H | b Q' D | c s r B' Q' F H].
  - rewrite Forall_forall in F. apply F in Is. contradiction.
  - destruct Is as [E | []]. exfalso. apply L. rewrite <- E. now left.
  - destruct Is as [E | [E | []]]; exfalso; apply L; rewrite <- E; [now right | now left].
  - destruct Is as [E | []]. exfalso. apply L. rewrite <- E. now right.
  - now split.
  - exfalso. apply Q. now eexists.
  - exfalso. apply Q. now eexists.
  - rewrite Forall_forall in F. apply F in Is. now destruct Is.
Qed.
Print Assumptions csv_separator_partial.

Example csv_separator_case : csv_lex (flat_source (lit "a;b")) (CsvConfig 59 34) = Some [Token CField 0 1; Token CComma 1 2; Token CField 2 3; Token CEof 3 3].
Proof. vm_compute. reflexivity. Qed.

(** With a tab or a space as the separator no text has a separator token. *)
Theorem csv_blank_separator : forall src text cfg toks, serves src text -> blank (cs_sep cfg) -> csv_lex src cfg = Some toks -> Forall (fun t => tk_kind t <> CComma) toks.
Proof.
  intros src text cfg toks Hs B E. destruct (reads_of_boundaries text 0 (length text) (Hv src text Hs)) as (cs & R); [lia | reflexivity | apply is_boundary_length|].
  destruct (csv_lex_cut src text cfg Hs cs R) as (ps & C & E'). assert (toks = spans 0 ps ++ [Token CEof (length text) (length text)]) as -> by congruence. apply Forall_app. split; [|constructor; [discriminate | constructor]].
  clear E E' R. generalize 0 at 1. induction C as [| k s r ps N T C IH]; intros off; [constructor|]. cbn [spans]. apply Forall_app. split; [|apply IH].
  destruct T; constructor; try discriminate; try constructor. contradiction.
Qed.
Print Assumptions csv_blank_separator.

(** Tab separated values. *)
Theorem csv_separator_refuted : exists cfg text, cs_sep cfg = 9%Z /\ In 9%Z text /\
  csv_lex (flat_source text) cfg = Some [Token CField 0 1; Token CWhitespace 1 2; Token CField 2 3; Token CEof 3 3].
Proof. exists (CsvConfig 9 34), [97%Z; 9%Z; 98%Z]. split; [reflexivity|]. split; [cbn; tauto | vm_compute; reflexivity]. Qed.
Print Assumptions csv_separator_refuted.

(** ** Tables *)
Theorem csv_table_partial : forall t, table_ok t -> (forall c, hd_error (table_text t) = Some c -> ~ blank c) ->
  (Z.of_nat (length (encode (table_text t))) < 2 ^ 32)%Z -> csv_parse (encode (table_text t)) = Some (table_tree t, []).
Proof. exact csv_table. Qed.
Print Assumptions csv_table_partial.

Definition case_table : table :=
  ([((Plain [] (lit "a"), [Quoted (lit " ") (lit "b,""c""") (lit " "); Plain [] []]), CrLf); ((Plain [] [], []), Lf)], Some (Plain (lit " ") (lit "d e"), [Plain [] []])).
Example csv_table_case : table_ok case_table /\ table_text case_table = lit "a, ""b,""""c"""""" ," ++ [13%Z; 10%Z; 10%Z] ++ lit " d e,".
Proof.
  split; [|reflexivity]. assert (B : Forall blank (lit " ")) by (constructor; [now left | constructor]).
  assert (P : forall s, forallb (fun x => (is_scalarb x && negb (x =? 10) && negb (x =? 13) && negb (x =? 44))%Z) s = true -> Forall (fun x => is_scalar x /\ ~ line_char x /\ x <> 44%Z) s).
  { intros s H. rewrite forallb_forall in H. apply Forall_forall. intros x X. specialize (H x X). rewrite !andb_true_iff, !negb_true_iff, !Z.eqb_neq in H. destruct H as (((H1 & H2) & H3) & H4). split; [now apply is_scalarb_spec|]. split; [intros [Y | Y]; contradiction | assumption]. }
  split; cbn [fst snd case_table].
  - split; [|split; [discriminate|]].
    + split; cbn [fst snd].
      * split; [constructor|]. split; [now apply P|]. intros x X. injection X as <-. split; [intros [Y | Y]; discriminate | discriminate].
      * constructor; [|constructor; [|constructor]].
        -- split; [assumption|]. split; [|assumption]. assert (F : forallb is_scalarb (lit "b,""c""") = true) by reflexivity. rewrite forallb_forall in F. apply Forall_forall. intros x X. apply is_scalarb_spec. now apply F.
        -- split; [constructor|]. split; [constructor | discriminate].
    + split; [|split; [discriminate | exact I]]. split; [|constructor]. split; [constructor|]. split; [constructor | discriminate].
  - split; [|intros l; discriminate]. split; cbn [fst snd].
    + split; [assumption|]. split; [now apply P|]. intros x X. injection X as <-. split; [intros [Y | Y]; discriminate | discriminate].
    + constructor; [|constructor]. split; [constructor|]. split; [constructor | discriminate].
Qed.
Example csv_table_result : csv_parse (encode (table_text case_table)) = Some (table_tree case_table, []).
Proof. vm_compute. reflexivity. Qed.

(** A blank at the start of the file is not in the tree: the tree of [ a] is shorter than the text. *)
Theorem csv_table_refuted : exists t, table_ok t /\ table_text t = lit " a" /\
  csv_parse (encode (table_text t)) = Some (gnode ESourceFile [gnode ERecord [gnode EField [leaf CField (lit "a")]]], []) /\
  table_tree t = gnode ESourceFile [leaf CWhitespace (lit " "); gnode ERecord [gnode EField [leaf CField (lit "a")]]].
Proof.
  exists ([], Some (Plain (lit " ") (lit "a"), [])). split; [|split; [reflexivity | split; [vm_compute; reflexivity | reflexivity]]]. split; [exact I|]. cbn [snd]. split; [|intros l; discriminate]. split; [|constructor]. cbn [fst cell_ok].
  split; [constructor; [now left | constructor]|]. split; [constructor; [|constructor]; split; [unfold is_scalar; cbn; lia|]; split; [intros [Y | Y]; discriminate | discriminate]|]. intros x X. injection X as <-. split; [intros [Y | Y]; discriminate | discriminate].
Qed.
Print Assumptions csv_table_refuted.

(** ** Any text *)
(** Without the blanks at the start, which are not in the tree. *)
Definition after_blanks (ys : list (nat * nat)) : list (nat * nat) :=
  match ys with (k, _) :: r => if k =? CWhitespace then r else ys | [] => [] end.

Theorem csv_parse_total_partial : forall cs, Forall is_scalar cs -> (Z.of_nat (length (encode cs)) < 2 ^ 32)%Z ->
  exists ps root, cut (csv_token csv_default) cs ps /\ csv_parse (encode cs) = Some (root, []) /\ yield root = after_blanks (flat_map piece_yield ps).
Proof.
  intros cs F L. assert (V : valid (encode cs)) by now exists cs. destruct (csv_lex_cut (flat_source (encode cs)) (encode cs) csv_default (flat_serves _ V) cs (all_reads cs F)) as (ps & C & _). exists ps, (ptree (flat_map piece_yield ps ++ [(CEof, 0)])).
  split; [assumption|]. split; [now apply parse_cut|]. destruct (cut_known csv_default cs ps C) as [K NE]. set (ys := flat_map piece_yield ps) in *.
  assert (A : nxt (ys ++ [(CEof, 0)]) = after_blanks ys ++ [(CEof, 0)]).
  { unfold ys. destruct (cut_cases _ _ _ C) as [[E ->] | (k & s & r & ps1 & E & -> & N & T & C1)]; [reflexivity|]. destruct (token_known _ _ _ _ T) as (x & -> & X). cbn [flat_map piece_yield fst snd app after_blanks ynext]. unfold csv_ignored. destruct (x =? CWhitespace) eqn:Ex; [|reflexivity].
    destruct (cut_cases _ _ _ C1) as [[E1 ->] | (k1 & s1 & r1 & ps2 & E1 & -> & N1 & T1 & C2)]; [reflexivity|]. destruct (token_known _ _ _ _ T1) as (x1 & -> & X1). cbn [flat_map piece_yield fst snd app ynext]. destruct (x1 =? CWhitespace) eqn:Ex1; [|reflexivity]. exfalso. apply Nat.eqb_eq in Ex, Ex1. subst x x1.
    inversion T as [s0 r0 Fb Hb E2 E3 E4 | | | | | | |]. inversion T1 as [s2 r2 Fb1 Hb1 E5 E6 E7 | | | | | | |]. destruct s1 as [| c s1]; [contradiction|]. apply (Hb c); [now rewrite E1 | now inversion Fb1]. }
  unfold ptree. cbn [gnode yield]. rewrite A.
  assert (K' : known (after_blanks ys ++ [(CEof, 0)])) by (rewrite <- A; apply (known_tail _ _ (nxt_tail _) K)).
  pose proof (precords_facts (length (after_blanks ys ++ [(CEof, 0)])) _ K' ltac:(rewrite <- A; apply nxt_settled) (le_n _)) as P.
  pose proof (precords_no_eof (length (after_blanks ys ++ [(CEof, 0)])) (after_blanks ys ++ [(CEof, 0)])) as Q. destruct (precords _ _) as [gs r]. cbn [fst] in *. destruct P as [Y E].
  apply (before_eof (after_blanks ys)) with (u := r); [|assumption | assumption | assumption].
  unfold after_blanks. destruct ys as [| [k n] ys']; [constructor|]. destruct (k =? CWhitespace); [now inversion NE | assumption].
Qed.
Print Assumptions csv_parse_total_partial.

Example csv_parse_total_case : csv_parse (lit """a""b") = Some (gnode ESourceFile [gnode ERecord [gnode EField [leaf CField (lit """a""")]]; gnode ERecord [gnode EField [leaf CField (lit "b")]]], []).
Proof. vm_compute. reflexivity. Qed.

(** Texts that are not CSV are not reported: no text is. *)
Definition well_quoted (ps : list piece) : Prop :=
  (forall s, In (Some CField, s) ps -> hd_error s = Some 34%Z -> exists b, doubled 34 b /\ s = 34%Z :: b ++ [34%Z]) /\
  (forall a s s' b, ps <> a ++ (Some CField, s) :: (Some CField, s') :: b).
Theorem csv_malformed_refuted : exists cs ps root, cut (csv_token csv_default) cs ps /\ ~ well_quoted ps /\ csv_parse (encode cs) = Some (root, []).
Proof.
  exists (lit """a"), [(Some CField, lit """a")], (gnode ESourceFile [gnode ERecord [gnode EField [leaf CField (lit """a")]]]). split; [|split].
  - rewrite <- (app_nil_r (lit """a")). constructor; [discriminate | | constructor]. apply (TkOpen csv_default (lit "a")); [apply default_quoting|]. constructor; [discriminate | constructor].
  - intros [H _]. destruct (H (lit """a") (or_introl eq_refl) eq_refl) as (b & D & E). injection E as E. destruct b as [| x [| y b]]; discriminate.
  - vm_compute. reflexivity.
Qed.
Print Assumptions csv_malformed_refuted.
