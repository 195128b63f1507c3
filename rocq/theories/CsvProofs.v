(** The CSV lexer and parser. *)
From Verif Require Import Base Utf8 Utf8Facts ScanSpec CursorModel CursorSpec CursorProofs LexModel LexSpec LexProofs LexLoopProofs.
From Verif Require Import TreeModel TreeSpec TreeProofs ParserModel ParserSpec ParserProofs.
From Verif Require Import JsonLangSpec JsonLexProofs LangModel LangSpec LangLexProofs LangParseProofs CsvModel CsvSpec.

Lemma blank_charb c : blank_char c = true <-> blank c.
Proof. unfold blank_char, blank. rewrite orb_true_iff, !Z.eqb_eq. reflexivity. Qed.
Lemma blank_charf c : blank_char c = false <-> ~ blank c.
Proof. rewrite <- blank_charb. destruct (blank_char c); split; congruence. Qed.
Lemma unquoted_charb cfg c : unquoted_char cfg c = true <-> ~ line_char c /\ c <> cs_sep cfg.
Proof. unfold unquoted_char, line_char. rewrite negb_true_iff, !orb_false_iff, !Z.eqb_neq. tauto. Qed.
Lemma unquoted_charf cfg c : unquoted_char cfg c = false <-> line_char c \/ c = cs_sep cfg.
Proof. unfold unquoted_char, line_char. rewrite negb_false_iff, !orb_true_iff, !Z.eqb_eq. tauto. Qed.

(** ** Reference: the first piece of a text *)
Fixpoint quoted_run (q : Z) (cs : list Z) : list Z :=
  match cs with
  | [] => []
  | c :: r => if (c =? q)%Z then match r with d :: r' => if (d =? q)%Z then c :: d :: quoted_run q r' else [c] | [] => [c] end
              else c :: quoted_run q r
  end.
Definition csv1 (cfg : csv_config) (cs : list Z) : nat * list Z :=
  match cs with
  | [] => (CEof, [])
  | c :: r =>
      if blank_char c then (CWhitespace, char_run blank_char cs)
      else if (c =? 13)%Z then (CNewline, match r with d :: _ => if (d =? 10)%Z then [c; d] else [c] | [] => [c] end)
      else if (c =? 10)%Z then (CNewline, [c])
      else if (c =? cs_sep cfg)%Z then (CComma, [c])
      else if (c =? cs_quote cfg)%Z then (CField, c :: quoted_run (cs_quote cfg) r)
      else (CField, char_run (unquoted_char cfg) cs)
  end.

Lemma quoted_app q : forall n cs, length cs <= n -> exists r, cs = quoted_run q cs ++ r.
Proof.
  induction n as [| n IH]; intros [| c cs] L; cbn [length] in L; try lia; try (now exists []). cbn [quoted_run]. destruct (c =? q)%Z.
  - destruct cs as [| d r]; [now exists []|]. destruct (d =? q)%Z; [|now exists (d :: r)]. destruct (IH r) as (t & E); [cbn [length] in L; lia|]. exists t. cbn [app]. now rewrite <- E.
  - destruct (IH cs) as (t & E); [lia|]. exists t. cbn [app]. now rewrite <- E.
Qed.
Lemma run_app p cs : exists r, cs = char_run p cs ++ r.
Proof. exists (drop_run p cs). symmetry. apply run_drop. Qed.
Lemma csv1_app cfg cs : exists r, cs = snd (csv1 cfg cs) ++ r.
Proof.
  destruct cs as [| c r]; [now exists []|]. unfold csv1. destruct (blank_char c); [apply run_app|]. destruct (c =? 13)%Z; [destruct r as [| d r]; [now exists []|]; destruct (d =? 10)%Z; [now exists r | now exists (d :: r)]|].
  destruct (c =? 10)%Z; [now exists r|]. destruct (c =? cs_sep cfg)%Z; [now exists r|]. destruct (c =? cs_quote cfg)%Z; [|apply run_app]. destruct (quoted_app (cs_quote cfg) (length r) r (le_n _)) as (t & E). exists t. cbn [snd app]. now rewrite <- E.
Qed.

(** *** The pieces are tokens *)
Lemma quoted_cases q : forall n cs, length cs <= n -> exists b r, cs = quoted_run q cs ++ r /\ doubled q b /\ ((quoted_run q cs = b ++ [q] /\ hd_error r <> Some q) \/ (quoted_run q cs = b /\ r = [])).
Proof.
  induction n as [| n IH]; intros [| c cs] L; cbn [length] in L; try lia; try (exists [], []; split; [reflexivity|]; split; [constructor|]; now right).
  cbn [quoted_run]. destruct (Z.eqb_spec c q) as [-> | N].
  - destruct cs as [| d r]; [exists [], []; split; [reflexivity|]; split; [constructor|]; left; split; [reflexivity | discriminate]|]. destruct (Z.eqb_spec d q) as [-> | N].
    + destruct (IH r) as (b & t & E & D & H); [cbn [length] in L; lia|]. exists (q :: q :: b), t. split; [cbn [app]; now rewrite <- E|]. split; [now constructor|]. destruct H as [[-> H] | [-> ->]]; [now left | now right].
    + exists [], (d :: r). split; [reflexivity|]. split; [constructor|]. left. split; [reflexivity|]. cbn. congruence.
  - destruct (IH cs) as (b & t & E & D & H); [lia|]. exists (c :: b), t. split; [cbn [app]; now rewrite <- E|]. split; [now constructor|]. destruct H as [[-> H] | [-> ->]]; [now left | now right].
Qed.

Lemma drop_of p cs r : cs = char_run p cs ++ r -> r = drop_run p cs.
Proof. intros E. rewrite <- (run_drop p cs) in E at 1. now apply app_inv_head in E. Qed.
Lemma Forall_iff {A} (P Q : A -> Prop) l : (forall x, P x -> Q x) -> Forall P l -> Forall Q l.
Proof. intros H. now apply Forall_impl. Qed.

Lemma csv1_token cfg c cs r : c :: cs = snd (csv1 cfg (c :: cs)) ++ r -> snd (csv1 cfg (c :: cs)) <> [] /\ csv_token cfg (Some (fst (csv1 cfg (c :: cs)))) (snd (csv1 cfg (c :: cs))) r.
Proof.
  unfold csv1. destruct (blank_char c) eqn:B.
  { cbn [fst snd]. intros E. apply drop_of in E. split; [cbn; now rewrite B|]. constructor.
    - pose proof (char_run_all blank_char (c :: cs)) as F. revert F. apply Forall_iff. intros x. apply blank_charb.
    - intros x X. pose proof (drop_head blank_char (c :: cs)) as D. rewrite <- E in D. destruct r; [discriminate|]. injection X as ->. now apply blank_charf. }
  apply blank_charf in B. destruct (Z.eqb_spec c 13) as [-> | N13].
  { destruct cs as [| d cs]; cbn [fst snd].
    - intros E. injection E as <-. split; [discriminate|]. now apply TkCr.
    - destruct (Z.eqb_spec d 10) as [-> | Nd]; intros E; injection E as E; split; try discriminate; [apply TkCrLf|]. apply TkCr. rewrite <- E. cbn. congruence. }
  destruct (Z.eqb_spec c 10) as [-> | N10]; [intros _; split; [discriminate | constructor]|].
  destruct (Z.eqb_spec c (cs_sep cfg)) as [-> | Ns]; [intros _; split; [discriminate|]; constructor; [assumption | unfold line_char; tauto]|].
  destruct (Z.eqb_spec c (cs_quote cfg)) as [-> | Nq].
  { cbn [fst snd]. intros E. injection E as E. split; [discriminate|]. destruct (quoted_cases (cs_quote cfg) (length cs) cs (le_n _)) as (b & t & E' & D & H). rewrite E in E' at 1. apply app_inv_head in E'. subst t.
    assert (Q : quoting cfg) by (split; [assumption|]; split; [unfold line_char; tauto | assumption]). destruct H as [[-> H] | [-> ->]]; [now apply TkQuoted | now apply TkOpen]. }
  cbn [fst snd]. intros E. assert (U : unquoted_char cfg c = true) by (apply unquoted_charb; unfold line_char; tauto). pose proof (drop_of _ _ _ E) as Ed. cbn [char_run] in *. rewrite U in *. split; [discriminate|].
  apply TkPlain; [assumption | assumption | |].
  - pose proof (char_run_all (unquoted_char cfg) (c :: cs)) as F. cbn [char_run] in F. rewrite U in F. revert F. apply Forall_iff. intros x. apply unquoted_charb.
  - intros x X. pose proof (drop_head (unquoted_char cfg) (c :: cs)) as D. rewrite <- Ed in D. destruct r; [discriminate|]. injection X as ->. now apply unquoted_charf.
Qed.

(** *** Tokens are the pieces *)
Lemma run_is p s r : Forall (fun c => p c = true) s -> (forall c, hd_error r = Some c -> p c = false) -> char_run p (s ++ r) = s.
Proof.
  intros F H. induction F as [| c s Hc _ IH]; cbn [app char_run]; [|now rewrite Hc, IH]. destruct r as [| c r]; [reflexivity|]. cbn. now rewrite (H c eq_refl).
Qed.
Lemma quoted_run_closed q b r : doubled q b -> hd_error r <> Some q -> quoted_run q (b ++ q :: r) = b ++ [q].
Proof.
  intros D H. induction D as [| c s N _ IH | s _ IH]; cbn [app quoted_run].
  - rewrite Z.eqb_refl. destruct r as [| d r]; [reflexivity|]. destruct (Z.eqb_spec d q); [cbn in H; congruence | reflexivity].
  - destruct (Z.eqb_spec c q); [contradiction|]. now rewrite IH.
  - rewrite Z.eqb_refl. now rewrite IH.
Qed.
Lemma quoted_run_open q b : doubled q b -> quoted_run q b = b.
Proof.
  induction 1 as [| c s N _ IH | s _ IH]; cbn [quoted_run]; [reflexivity | | rewrite Z.eqb_refl; now rewrite IH]. destruct (Z.eqb_spec c q); [contradiction|]. now rewrite IH.
Qed.
Lemma blank_not_line c : blank c -> ~ line_char c.
Proof. unfold blank, line_char. intros [-> | ->] [H | H]; discriminate. Qed.

Lemma token_csv1 cfg k s r : s <> [] -> csv_token cfg k s r -> (k, s) = (Some (fst (csv1 cfg (s ++ r))), snd (csv1 cfg (s ++ r))).
Proof.
  intros N T. destruct T as [s r F H | r | r | r H | r B L | b r Q D H | b Q D | c s r B Q F H].
  - destruct s as [| c s]; [contradiction|]. cbn [app]. unfold csv1. assert (Hc : blank_char c = true) by (apply blank_charb; now inversion F). rewrite Hc. cbn [fst snd]. f_equal. symmetry. change (c :: s ++ r) with ((c :: s) ++ r). apply run_is.
    + revert F. apply Forall_iff. intros x. apply blank_charb.
    + intros x X. now apply blank_charf, H.
  - reflexivity.
  - reflexivity.
  - cbn. destruct r as [| d r]; [reflexivity|]. destruct (Z.eqb_spec d 10); [cbn in H; congruence | reflexivity].
  - cbn [app]. unfold csv1. apply blank_charf in B. rewrite B. destruct (Z.eqb_spec (cs_sep cfg) 13); [unfold line_char in L; tauto|]. destruct (Z.eqb_spec (cs_sep cfg) 10); [unfold line_char in L; tauto|]. now rewrite Z.eqb_refl.
  - destruct Q as (B & L & Ns). cbn [app]. unfold csv1. apply blank_charf in B. rewrite B. destruct (Z.eqb_spec (cs_quote cfg) 13); [unfold line_char in L; tauto|]. destruct (Z.eqb_spec (cs_quote cfg) 10); [unfold line_char in L; tauto|]. destruct (Z.eqb_spec (cs_quote cfg) (cs_sep cfg)); [contradiction|]. rewrite Z.eqb_refl. cbn [fst snd].
    rewrite <- app_assoc. cbn [app]. now rewrite quoted_run_closed.
  - destruct Q as (B & L & Ns). rewrite app_nil_r. unfold csv1. apply blank_charf in B. rewrite B. destruct (Z.eqb_spec (cs_quote cfg) 13); [unfold line_char in L; tauto|]. destruct (Z.eqb_spec (cs_quote cfg) 10); [unfold line_char in L; tauto|]. destruct (Z.eqb_spec (cs_quote cfg) (cs_sep cfg)); [contradiction|]. rewrite Z.eqb_refl. cbn [fst snd].
    now rewrite quoted_run_open.
  - cbn [app]. unfold csv1. pose proof F as F0. inversion F0 as [| x0 l0 [L Ns] _]. apply blank_charf in B. rewrite B. destruct (Z.eqb_spec c 13); [unfold line_char in L; tauto|]. destruct (Z.eqb_spec c 10); [unfold line_char in L; tauto|]. destruct (Z.eqb_spec c (cs_sep cfg)); [contradiction|]. destruct (Z.eqb_spec c (cs_quote cfg)); [contradiction|].
    cbn [fst snd]. f_equal. symmetry. change (c :: s ++ r) with ((c :: s) ++ r). apply run_is.
    + revert F. apply Forall_iff. intros x. apply unquoted_charb.
    + intros x X. now apply unquoted_charf, H.
Qed.

Lemma csv_cut_unique cfg cs ps ps' : cut (csv_token cfg) cs ps -> cut (csv_token cfg) cs ps' -> ps = ps'.
Proof.
  intros C C'. revert ps' C'. apply (cut_unique (csv_token cfg) cs ps); [|assumption]. intros k s r k' s' r' E N N' T T'. apply token_csv1 in T; [|assumption]. apply token_csv1 in T'; [|assumption]. rewrite E in T. split; congruence.
Qed.

(** ** The lexer *)
Section Steps.
  Variable (src : source) (text : str) (cfg : csv_config).
  Hypothesis Hs : serves src text.
  Notation view := (view src text).

  Lemma quoted_loop_view : forall fuel cs l r, view l cs -> length cs < fuel -> cs = quoted_run (cs_quote cfg) cs ++ r -> exists l', quoted_loop src cfg fuel l = Some l' /\ view l' r /\ lx_toks l' = lx_toks l.
  Proof.
    induction fuel as [| f IH]; intros cs l r V L E; [lia|]. cbn [quoted_loop]. destruct (view_current src text Hs l cs V) as (l1 & -> & V1 & O1 & T1). destruct cs as [| c cs]; cbn [hd_error].
    - exists l1. cbn in E. subst r. now split.
    - destruct (view_advance src text Hs l1 c cs V1) as (V2 & O2 & T2). cbv zeta. set (l2 := lx_advance src l1 (char_len c)) in *. cbn [length] in L. cbn [quoted_run] in E. destruct (Z.eqb_spec c (cs_quote cfg)) as [-> | N].
      + destruct (view_current src text Hs l2 cs V2) as (l3 & -> & V3 & O3 & T3). destruct cs as [| d cs]; cbn [hd_error].
        * exists l3. injection E as <-. split; [reflexivity|]. split; [assumption | congruence].
        * destruct (Z.eqb_spec d (cs_quote cfg)) as [-> | Nd].
          -- destruct (view_advance src text Hs l3 _ cs V3) as (V4 & O4 & T4). cbn [app] in E. injection E as E. destruct (IH cs _ r V4) as (l' & E' & V' & T'); [cbn [length] in L; lia | assumption|]. exists l'. split; [assumption|]. split; [assumption | congruence].
          -- injection E as <-. exists l3. split; [reflexivity|]. split; [assumption | congruence].
      + cbn [app] in E. injection E as E. destruct (IH cs l2 r V2) as (l' & E' & V' & T'); [lia | assumption|]. exists l'. split; [assumption|]. split; [assumption | congruence].
  Qed.

  Lemma csv_round l c cs r : view l (c :: cs) -> c :: cs = snd (csv1 cfg (c :: cs)) ++ r -> exists l', csv_rule src cfg l = Some l' /\ stepped src text l l' (Some (fst (csv1 cfg (c :: cs)))) r.
  Proof.
    intros V. unfold csv1, csv_rule. unfold csv_whitespace. destruct (token_if_view src text Hs CWhitespace blank_char l (c :: cs) V) as (l1 & -> & V1 & T1 & O1). destruct (blank_char c) eqn:B.
    { cbn [fst snd]. intros E. apply drop_of in E. subst r. cbn [char_run] in T1 |- *. rewrite B in *. exists l1. split; [reflexivity|]. now split. }
    assert (Er : char_run blank_char (c :: cs) = []) by (cbn [char_run]; now rewrite B). unfold drop_run in V1. rewrite Er in *. cbn [length skipn] in V1. rewrite app_nil_r in T1. specialize (O1 eq_refl).
    unfold csv_newline. destruct (view_current src text Hs l1 _ V1) as (l2 & -> & V2 & O2 & T2). cbn [hd_error].
    destruct (Z.eqb_spec c 13) as [-> | N13].
    { cbn [fst snd]. destruct (view_advance1 src text Hs l2 13 cs ltac:(lia) V2) as (V3 & T3). set (l3 := lx_advance src l2 1) in *. destruct (view_current src text Hs l3 _ V3) as (l4 & -> & V4 & O4 & T4). destruct cs as [| d cs]; cbn [hd_error].
      - intros E. injection E as <-. eexists. split; [reflexivity|]. split; [exact V4|]. cbn [add_token lx_toks]. rewrite T4, T3, T2, T1, O1. reflexivity.
      - destruct (Z.eqb_spec d 10) as [-> | Nd]; intros E; injection E as <-.
        + destruct (view_advance1 src text Hs l4 10 cs ltac:(lia) V4) as (V5 & T5). eexists. split; [reflexivity|]. split; [exact V5|]. cbn [add_token lx_toks]. rewrite T5, T4, T3, T2, T1, O1. reflexivity.
        + eexists. split; [reflexivity|]. split; [exact V4|]. cbn [add_token lx_toks]. rewrite T4, T3, T2, T1, O1. reflexivity. }
    destruct (Z.eqb_spec c 10) as [-> | N10].
    { cbn [fst snd]. intros E. injection E as <-. destruct (view_advance1 src text Hs l2 10 cs ltac:(lia) V2) as (V3 & T3). eexists. split; [reflexivity|]. split; [exact V3|]. cbn [add_token lx_toks]. rewrite T3, T2, T1, O1. reflexivity. }
    unfold csv_comma. destruct (view_current src text Hs l2 _ V2) as (l3 & -> & V3 & O3 & T3). cbn [hd_error]. destruct (Z.eqb_spec c (cs_sep cfg)) as [-> | Ns].
    { cbn [fst snd]. intros E. injection E as <-. destruct (view_advance src text Hs l3 _ cs V3) as (V4 & O4 & T4). eexists. split; [reflexivity|]. split; [exact V4|]. cbn [add_token lx_toks]. rewrite T4, T3, T2, T1, O2, O1. reflexivity. }
    unfold csv_quoted. destruct (view_current src text Hs l3 _ V3) as (l4 & -> & V4 & O4 & T4). cbn [hd_error]. destruct (Z.eqb_spec c (cs_quote cfg)) as [-> | Nq].
    { cbn [fst snd app]. intros E. injection E as E. destruct (view_advance src text Hs l4 _ cs V4) as (V5 & O5 & T5). destruct (quoted_loop_view (scan_fuel src) cs _ r V5 (view_length no_char no_char src text Hs _ _ V5) E) as (l6 & -> & V6 & T6).
      eexists. split; [reflexivity|]. split; [exact V6|]. cbn [add_token lx_toks]. rewrite T6, T5, T4, T3, T2, T1, O3, O2, O1. reflexivity. }
    unfold csv_unquoted. destruct (token_if_view src text Hs CField (unquoted_char cfg) l4 (c :: cs) V4) as (l5 & -> & V5 & T5 & _). cbn [fst snd]. intros E. apply drop_of in E. subst r.
    assert (U : unquoted_char cfg c = true) by (apply unquoted_charb; unfold line_char; tauto). cbn [char_run] in *. rewrite U in *. eexists. split; [reflexivity|]. split; [exact V5|]. rewrite T5, T4, T3, T2, T1, O4, O3, O2, O1. reflexivity.
  Qed.

  Lemma csv_lex_cut cs : reads text 0 (length text) cs -> exists ps, cut (csv_token cfg) cs ps /\ csv_lex src cfg = Some (spans 0 ps ++ [Token CEof (length text) (length text)]).
  Proof.
    intros R. apply (lex_all_view src text (csv_rule src cfg) (csv_token cfg) Hs); [|assumption]. intros l c r V. destruct (csv1_app cfg (c :: r)) as (r' & E). destruct (csv_round l c r r' V E) as (l' & El & S').
    destruct (csv1_token cfg c r r' E) as [N T]. exists l', (Some (fst (csv1 cfg (c :: r)))), (snd (csv1 cfg (c :: r))), r'. auto.
  Qed.
End Steps.

Lemma csv_lex_is src text cfg cs ps : serves src text -> reads text 0 (length text) cs -> cut (csv_token cfg) cs ps -> csv_lex src cfg = Some (spans 0 ps ++ [Token CEof (length text) (length text)]).
Proof.
  intros Hs R C. destruct (csv_lex_cut src text cfg Hs cs R) as (ps' & C' & ->). now rewrite (csv_cut_unique cfg cs ps ps' C C').
Qed.

(** ** The parser on kinds and lengths *)
Notation nxt := (ynext csv_ignored).
Notation tri := (ytrivia csv_ignored).
Definition pfield (ys : list (nat * nat)) : green * list (nat * nat) :=
  match ys with
  | y :: r => if fst y =? CField then (gnode EField (yleaf y :: map yleaf (tri r)), nxt r) else (gnode EField [], ys)
  | [] => (gnode EField [], [])
  end.
Fixpoint pfields (n : nat) (ys : list (nat * nat)) : list green * list (nat * nat) :=
  match n, ys with
  | S n, y :: r =>
      if fst y =? CComma then
        let '(g, r1) := pfield (nxt r) in let '(gs, r2) := pfields n r1 in (yleaf y :: map yleaf (tri r) ++ g :: gs, r2)
      else ([], ys)
  | _, _ => ([], ys)
  end.
Definition precord (ys : list (nat * nat)) : green * list (nat * nat) :=
  let '(g, r) := pfield ys in let '(gs, r') := pfields (length r) r in (gnode ERecord (g :: gs), r').
Definition pnewline (ys : list (nat * nat)) : list green * list (nat * nat) :=
  match ys with
  | y :: r => if fst y =? CNewline then (yleaf y :: map yleaf (tri r), nxt r) else ([], ys)
  | [] => ([], [])
  end.
Fixpoint precords (n : nat) (ys : list (nat * nat)) : list green * list (nat * nat) :=
  match n, ys with
  | S n, y :: _ =>
      if fst y =? CEof then ([], ys)
      else let '(g, r) := precord ys in let '(l, r1) := pnewline r in let '(gs, r2) := precords n r1 in (g :: l ++ gs, r2)
  | _, _ => ([], ys)
  end.

Lemma nxt_length ys : length (nxt ys) <= length ys. Proof. apply ynext_length. Qed.
Lemma pfield_length ys : length (snd (pfield ys)) <= length ys.
Proof. destruct ys as [| y r]; [reflexivity|]. cbn. destruct (fst y =? CField); [|reflexivity]. cbn. pose proof (nxt_length r). lia. Qed.
Lemma pfields_length n : forall ys, length (snd (pfields n ys)) <= length ys.
Proof.
  induction n as [| n IH]; intros ys; [reflexivity|]. destruct ys as [| y r]; [reflexivity|]. cbn [pfields]. destruct (fst y =? CComma); [|reflexivity].
  pose proof (pfield_length (nxt r)). destruct (pfield (nxt r)) as [g r1] eqn:E. specialize (IH r1). destruct (pfields n r1) as [gs r2]. cbn [fst snd length] in *. pose proof (nxt_length r). lia.
Qed.
Lemma pfields_enough n : forall m ys, length ys <= n -> n <= m -> pfields m ys = pfields n ys.
Proof.
  induction n as [| n IH]; intros m ys L M; destruct ys as [| y r]; cbn [length] in L; try lia; try (now destruct m). destruct m as [| m]; [lia|]. cbn [pfields]. destruct (fst y =? CComma); [|reflexivity].
  pose proof (pfield_length (nxt r)). destruct (pfield (nxt r)) as [g r1] eqn:E. cbn [snd] in *. pose proof (nxt_length r). rewrite (IH m r1) by lia. reflexivity.
Qed.

Section Parse.
  Variable (toks : list token).
  Hypothesis Hfit : (Z.of_nat (toklen toks) < 2 ^ 32)%Z.
  Notation sits := (sits toks).

  Lemma field_sits s ys trees : sits s ys trees -> exists s', parse_field s = Some s' /\ sits s' (snd (pfield ys)) (trees ++ [fst (pfield ys)]) /\ ps_errs s' = ps_errs s.
  Proof.
    intros S. unfold parse_field. rewrite (sits_at toks s ys trees CField S). unfold checkpoint. rewrite (sits_sink toks s ys trees S). destruct ys as [| y r]; cbn [pfield fst snd].
    - rewrite <- (app_nil_r trees) in S. destruct (sits_finish csv_ignored toks Hfit s [] trees [] (ps_index s) EField S) as (n & s' & -> & S' & E). exists s'. now split.
    - destruct (fst y =? CField) eqn:K; cbn [fst snd].
      + destruct (sits_bump csv_ignored toks Hfit s y r trees S) as [S1 E1]. destruct (sits_finish csv_ignored toks Hfit _ _ trees _ (ps_index s) EField S1) as (n & s' & -> & S' & E). exists s'. split; [reflexivity|]. split; [assumption | congruence].
      + rewrite <- (app_nil_r trees) in S. destruct (sits_finish csv_ignored toks Hfit s _ trees [] (ps_index s) EField S) as (n & s' & -> & S' & E). exists s'. now split.
  Qed.

  Lemma fields_sits : forall n s ys trees, sits s ys trees -> length ys < n -> exists s', fields_loop n s = Some s' /\ sits s' (snd (pfields (length ys) ys)) (trees ++ fst (pfields (length ys) ys)) /\ ps_errs s' = ps_errs s.
  Proof.
    induction n as [| n IH]; intros s ys trees S L; [lia|]. cbn [fields_loop]. rewrite (sits_at toks s ys trees CComma S). destruct ys as [| y r]; cbn [length pfields].
    - exists s. cbn [fst snd]. rewrite app_nil_r. now split.
    - destruct (fst y =? CComma) eqn:K; cbn [fst snd]; [|exists s; rewrite app_nil_r; now split].
      destruct (sits_bump csv_ignored toks Hfit s y r trees S) as [S1 E1]. destruct (field_sits _ _ _ S1) as (s2 & -> & S2 & E2). pose proof (pfield_length (nxt r)) as P. destruct (pfield (nxt r)) as [g r1] eqn:Ef. cbn [fst snd] in *. pose proof (nxt_length r). cbn [length] in L.
      destruct (IH s2 r1 _ S2) as (s3 & -> & S3 & E3); [lia|]. rewrite (pfields_enough (length r1) (length r) r1) by lia. destruct (pfields (length r1) r1) as [gs r2]. cbn [fst snd] in *. exists s3. split; [reflexivity|]. split; [|congruence].
      repeat (rewrite <- app_assoc in S3; cbn [app] in S3). exact S3.
  Qed.

  Lemma record_sits s ys trees : sits s ys trees -> exists s', parse_record s = Some s' /\ sits s' (snd (precord ys)) (trees ++ [fst (precord ys)]) /\ ps_errs s' = ps_errs s.
  Proof.
    intros S. unfold parse_record, checkpoint. rewrite (sits_sink toks s ys trees S). destruct (field_sits s ys trees S) as (s1 & -> & S1 & E1). unfold precord. destruct (pfield ys) as [g r]. cbn [fst snd] in *.
    destruct (fields_sits (Datatypes.S (length (ps_toks s1))) s1 r _ S1) as (s2 & -> & S2 & E2). { destruct (sits_toks toks s1 _ _ S1) as [-> L]. lia. }
    destruct (pfields (length r) r) as [gs r']. cbn [fst snd] in *. rewrite <- app_assoc in S2. destruct (sits_finish csv_ignored toks Hfit s2 _ trees _ (ps_index s) ERecord S2) as (n & s3 & -> & S3 & E3). exists s3. split; [reflexivity|]. split; [exact S3 | congruence].
  Qed.

  Lemma newline_sits s ys trees : sits s ys trees -> let s' := if at_kind s CNewline then bump csv_ignored s else s in sits s' (snd (pnewline ys)) (trees ++ fst (pnewline ys)) /\ ps_errs s' = ps_errs s.
  Proof.
    intros S. cbv zeta. rewrite (sits_at toks s ys trees CNewline S). destruct ys as [| y r]; cbn [pnewline fst snd]; [rewrite app_nil_r; now split|]. destruct (fst y =? CNewline); cbn [fst snd]; [|rewrite app_nil_r; now split]. now apply sits_bump.
  Qed.
End Parse.

(** The kinds of the tokens of a text. *)
Definition known (ys : list (nat * nat)) : Prop := Forall (fun y => In (fst y) [CWhitespace; CNewline; CField; CComma; CEof]) ys.
Definition settled_y (ys : list (nat * nat)) : Prop := match ys with [] => True | y :: _ => csv_ignored (fst y) = false end.
(** What is left is a tail of what was there. *)
Definition tail_of (r ys : list (nat * nat)) : Prop := exists u, ys = u ++ r.
Lemma tail_refl ys : tail_of ys ys. Proof. now exists []. Qed.
Lemma tail_trans a b c : tail_of a b -> tail_of b c -> tail_of a c.
Proof. intros (u & ->) (v & ->). exists (v ++ u). now rewrite app_assoc. Qed.
Lemma tail_cons y r ys : tail_of r ys -> tail_of r (y :: ys).
Proof. intros (u & ->). now exists (y :: u). Qed.
Lemma nxt_tail ys : tail_of (nxt ys) ys.
Proof. exists (tri ys). symmetry. apply ytrivia_next. Qed.
Lemma known_tail r ys : tail_of r ys -> known ys -> known r.
Proof. intros (u & ->) K. now apply Forall_app in K. Qed.
Lemma nxt_settled ys : settled_y (nxt ys).
Proof. apply ynext_settled. Qed.

Lemma yield_leaves ys : flat_map yield (map yleaf ys) = ys.
Proof. induction ys as [| [k n] r IH]; [reflexivity|]. cbn. now rewrite IH. Qed.

Lemma pfield_facts ys : let '(g, r) := pfield ys in tail_of r ys /\ (settled_y ys -> settled_y r) /\ yield g ++ r = ys /\ (match ys with y :: _ => fst y = CField | [] => False end -> length r < length ys) /\ (match ys with y :: _ => fst y <> CField | [] => True end -> r = ys).
Proof.
  destruct ys as [| y r]; cbn [pfield]; [repeat split; auto; [apply tail_refl | contradiction]|]. destruct (Nat.eqb_spec (fst y) CField) as [E | N].
  - split; [apply tail_cons, nxt_tail|]. split; [intros _; apply nxt_settled|]. split; [|split; [intros _; cbn [length]; pose proof (nxt_length r); lia | contradiction]].
    cbn [gnode yield flat_map]. rewrite yield_leaves. cbn [app]. destruct y as [k n]. cbn. now rewrite ytrivia_next.
  - split; [apply tail_refl|]. split; [auto|]. split; [reflexivity|]. split; [contradiction | auto].
Qed.
Lemma pfields_facts n : forall ys, let '(gs, r) := pfields n ys in tail_of r ys /\ (settled_y ys -> settled_y r) /\ flat_map yield gs ++ r = ys /\ (length ys <= n -> match r with y :: _ => fst y <> CComma | [] => True end) /\
  (n <> 0 -> match ys with y :: _ => fst y = CComma | [] => False end -> length r < length ys).
Proof.
  induction n as [| n IH]; intros ys.
  - cbn [pfields]. destruct ys; (split; [apply tail_refl|]; split; [auto|]; split; [reflexivity|]; split; [cbn; intros; try lia; exact I | intros []; reflexivity]).
  - destruct ys as [| y r]; cbn [pfields]; [split; [apply tail_refl|]; repeat split; auto; contradiction|]. destruct (Nat.eqb_spec (fst y) CComma) as [E | N].
    + pose proof (pfield_facts (nxt r)) as F. pose proof (pfield_length (nxt r)) as L. destruct (pfield (nxt r)) as [g r1]. cbn [snd] in L. destruct F as (T1 & S1 & Y1 & _). specialize (IH r1). pose proof (pfields_length n r1) as L2. destruct (pfields n r1) as [gs r2]. cbn [snd] in L2. destruct IH as (T2 & S2 & Y2 & C2 & _). pose proof (nxt_length r).
      split; [apply tail_cons; apply (tail_trans r2 r1 r); [assumption|]; apply (tail_trans r1 (nxt r)); [assumption | apply nxt_tail]|]. split; [intros _; apply S2, S1, nxt_settled|]. split; [|split; [intros Ly; apply C2; cbn [length] in Ly; lia | intros _ _; cbn [length]; lia]].
      cbn [flat_map]. rewrite flat_map_app, yield_leaves. cbn [flat_map]. destruct y as [k m]. cbn [yleaf yield fst snd app]. rewrite <- !app_assoc, Y2, Y1, ytrivia_next. reflexivity.
    + split; [apply tail_refl|]. split; [auto|]. split; [reflexivity|]. split; [intros _; assumption | intros _ H; contradiction].
Qed.
Lemma precord_facts ys : let '(g, r) := precord ys in tail_of r ys /\ (settled_y ys -> settled_y r) /\ yield g ++ r = ys /\ (match ys with y :: _ => fst y = CField \/ fst y = CComma | [] => False end -> length r < length ys) /\ length r <= length ys /\
  match r with y :: _ => fst y <> CComma | [] => True end.
Proof.
  unfold precord. pose proof (pfield_facts ys) as F. pose proof (pfield_length ys) as L. destruct (pfield ys) as [g r]. cbn [snd] in L. destruct F as (T & S & Y & P & Q). pose proof (pfields_facts (length r) r) as F. pose proof (pfields_length (length r) r) as L2. destruct (pfields (length r) r) as [gs r']. cbn [snd] in L2. destruct F as (T' & S' & Y' & C & P').
  split; [now apply (tail_trans r' r)|]. split; [auto|]. split; [cbn [gnode yield flat_map]; now rewrite <- app_assoc, Y', Y|]. split; [|split; [lia | now apply C]].
  destruct ys as [| y ys]; [contradiction|]. intros [E | E]; [specialize (P E); lia|]. rewrite (Q ltac:(rewrite E; discriminate)) in *. specialize (P' ltac:(discriminate) E). lia.
Qed.
Lemma pnewline_facts ys : let '(l, r) := pnewline ys in tail_of r ys /\ (settled_y ys -> settled_y r) /\ flat_map yield l ++ r = ys /\ length r <= length ys /\ (match ys with y :: _ => fst y = CNewline | [] => False end -> length r < length ys).
Proof.
  destruct ys as [| y r]; cbn [pnewline]; [split; [apply tail_refl|]; repeat split; auto; contradiction|]. destruct (Nat.eqb_spec (fst y) CNewline) as [E | N].
  - pose proof (nxt_length r). split; [apply tail_cons, nxt_tail|]. split; [intros _; apply nxt_settled|]. split; [|split; [|intros _]; cbn [length]; lia]. cbn [flat_map]. rewrite yield_leaves. destruct y as [k n]. cbn. now rewrite ytrivia_next.
  - split; [apply tail_refl|]. split; [auto|]. split; [reflexivity|]. split; [lia | contradiction].
Qed.

(** A round of the top loop uses up a token. *)
Lemma round_shrinks y ys : known (y :: ys) -> settled_y (y :: ys) -> fst y <> CEof -> length (snd (pnewline (snd (precord (y :: ys))))) < length (y :: ys).
Proof.
  intros K S N. pose proof (precord_facts (y :: ys)) as F. destruct (precord (y :: ys)) as [g r]. cbn [snd]. destruct F as (T & S' & Y & P & L & C). pose proof (pnewline_facts r) as F. destruct (pnewline r) as [l r']. cbn [snd]. destruct F as (T' & S'' & Y' & L' & P').
  unfold known in K. inversion K as [| a b Hy _]. subst a b. cbn [In] in Hy. destruct Hy as [E | [E | [E | [E | [E | []]]]]].
  - unfold settled_y in S. rewrite <- E in S. discriminate.
  - assert (r = y :: ys \/ length r < length (y :: ys)) as [-> | ?]. { destruct T as (u & Eu). destruct u as [| a u]; [left; now rewrite Eu | right]. rewrite Eu. cbn [app length]. rewrite app_length. lia. }
    + specialize (P' (eq_sym E)). lia.
    + lia.
  - specialize (P (or_introl (eq_sym E))). lia.
  - specialize (P (or_intror (eq_sym E))). lia.
  - congruence.
Qed.

Lemma precords_enough n : forall m ys, known ys -> settled_y ys -> length ys <= n -> n <= m -> precords m ys = precords n ys.
Proof.
  induction n as [| n IH]; intros m ys K S L M; destruct ys as [| y r]; cbn [length] in L; try lia; try (now destruct m). destruct m as [| m]; [lia|]. cbn [precords]. destruct (Nat.eqb_spec (fst y) CEof) as [E | N]; [reflexivity|].
  pose proof (round_shrinks y r K S N) as R. pose proof (precord_facts (y :: r)) as F. destruct (precord (y :: r)) as [g r1]. cbn [snd] in R. destruct F as (T1 & S1 & _). pose proof (pnewline_facts r1) as F. destruct (pnewline r1) as [l r2]. cbn [snd] in R. destruct F as (T2 & S2 & _). cbn [length] in R.
  rewrite (IH m r2); [reflexivity | | auto | lia | lia]. apply (known_tail r2 r1); [assumption|]. now apply (known_tail r1 (y :: r)).
Qed.

(** What is left after the records is the end of the tokens. *)
Lemma precords_facts n : forall ys, known ys -> settled_y ys -> length ys <= n -> let '(gs, r) := precords n ys in flat_map yield gs ++ r = ys /\ match r with y :: _ => fst y = CEof | [] => True end.
Proof.
  induction n as [| n IH]; intros ys K S L; destruct ys as [| y r]; cbn [length] in L; try lia; try (now cbn). cbn [precords]. destruct (Nat.eqb_spec (fst y) CEof) as [E | N]; [now split|].
  pose proof (round_shrinks y r K S N) as R. pose proof (precord_facts (y :: r)) as F. destruct (precord (y :: r)) as [g r1]. cbn [snd] in R. destruct F as (T1 & S1 & Y1 & _). pose proof (pnewline_facts r1) as F. destruct (pnewline r1) as [l r2]. cbn [snd] in R. destruct F as (T2 & S2 & Y2 & _). cbn [length] in R.
  specialize (IH r2 (known_tail r2 r1 T2 (known_tail r1 _ T1 K)) (S2 (S1 S)) ltac:(lia)). destruct (precords n r2) as [gs r3]. destruct IH as [Y3 E3]. split; [|assumption]. cbn [flat_map]. rewrite flat_map_app, <- !app_assoc, Y3, Y2. assumption.
Qed.

Section Root.
  Variable (toks : list token).
  Hypothesis Hfit : (Z.of_nat (toklen toks) < 2 ^ 32)%Z.
  Notation sits := (sits toks).

  Lemma records_sits : forall n s ys trees, sits s ys trees -> known ys -> settled_y ys -> length ys < n -> exists s', records_loop n s = Some s' /\ sits s' (snd (precords (length ys) ys)) (trees ++ fst (precords (length ys) ys)) /\ ps_errs s' = ps_errs s.
  Proof.
    induction n as [| n IH]; intros s ys trees S K St L; [lia|]. cbn [records_loop]. rewrite (sits_end toks s ys trees S), (sits_at toks s ys trees CEof S). destruct ys as [| y r]; cbn [length precords andb].
    - exists s. cbn [fst snd]. rewrite app_nil_r. now split.
    - destruct (Nat.eqb_spec (fst y) CEof) as [E | N]; cbn [negb fst snd]; [exists s; rewrite app_nil_r; now split|].
      pose proof (round_shrinks y r K St N) as R. destruct (record_sits toks Hfit s _ _ S) as (s1 & -> & S1 & E1). pose proof (precord_facts (y :: r)) as F. destruct (precord (y :: r)) as [g r1]. cbn [fst snd] in *. destruct F as (T1 & P1 & _).
      destruct (newline_sits toks Hfit s1 r1 _ S1) as [S2 E2]. pose proof (pnewline_facts r1) as F. destruct (pnewline r1) as [l r2]. cbn [fst snd length] in *. destruct F as (T2 & P2 & _). pose proof (known_tail r2 r1 T2 (known_tail r1 _ T1 K)) as K2.
      destruct (IH _ r2 _ S2 K2 (P2 (P1 St))) as (s3 & -> & S3 & E3); [lia|]. rewrite (precords_enough (length r2) (length r) r2 K2 (P2 (P1 St))) by lia. destruct (precords (length r2) r2) as [gs r3]. cbn [fst snd] in *.
      exists s3. split; [reflexivity|]. split; [|congruence]. repeat (rewrite <- app_assoc in S3; cbn [app] in S3). exact S3.
  Qed.
End Root.

(** The whole of parsing, on kinds and lengths. *)
Definition ptree (ys : list (nat * nat)) : green := gnode ESourceFile (fst (precords (length (nxt ys)) (nxt ys))).

Lemma root_of toks n errs : (Z.of_nat (toklen toks) < 2 ^ 32)%Z -> known (map tok_yield toks) ->
  csv_root (ps_new csv_ignored toks n errs) = Some (ptree (map tok_yield toks), errs).
Proof.
  intros Hfit K. destruct (sits_new csv_ignored toks Hfit n errs) as [S E]. set (s := ps_new csv_ignored toks n errs) in *. unfold csv_root, checkpoint. rewrite (sits_sink toks s _ _ S).
  destruct (records_sits toks Hfit (Datatypes.S (length (ps_toks s))) s _ _ S) as (s1 & -> & S1 & E1).
  { apply (known_tail _ _ (nxt_tail _) K). }
  { apply nxt_settled. }
  { destruct (sits_toks toks s _ _ S) as [-> L]. lia. }
  destruct (sits_finish csv_ignored toks Hfit s1 _ _ _ (ps_index s) ESourceFile S1) as (m & s2 & -> & S2 & E2). unfold ptree. now rewrite E2, E1, E.
Qed.

(** The end token is not put into the tree. *)
Notation no_eof := (Forall (fun y : nat * nat => fst y <> CEof)).
Lemma tri_no_eof ys : no_eof (tri ys).
Proof. induction ys as [| y r IH]; [constructor|]. cbn. unfold csv_ignored at 1. destruct (Nat.eqb_spec (fst y) CWhitespace) as [E|]; [|constructor]. constructor; [rewrite E; discriminate | assumption]. Qed.
Lemma leaf_no_eof y r k : (fst y =? k) = true -> k <> CEof -> no_eof (flat_map yield (yleaf y :: map yleaf (tri r))).
Proof. intros E N. cbn [flat_map]. rewrite yield_leaves. destruct y as [a n]. cbn in *. apply Nat.eqb_eq in E. constructor; [now rewrite E | apply tri_no_eof]. Qed.
Lemma pfield_no_eof ys : no_eof (yield (fst (pfield ys))).
Proof. destruct ys as [| y r]; [constructor|]. cbn [pfield]. destruct (fst y =? CField) eqn:E; [|constructor]. cbn [fst gnode yield]. now apply (leaf_no_eof y r CField). Qed.
Lemma pfields_no_eof n : forall ys, no_eof (flat_map yield (fst (pfields n ys))).
Proof.
  induction n as [| n IH]; intros ys; [constructor|]. destruct ys as [| y r]; [constructor|]. cbn [pfields]. destruct (fst y =? CComma) eqn:E; [|constructor]. pose proof (pfield_no_eof (nxt r)) as F. destruct (pfield (nxt r)) as [g r1]. specialize (IH r1). destruct (pfields n r1) as [gs r2]. cbn [fst] in *.
  change (yleaf y :: map yleaf (tri r) ++ g :: gs) with ((yleaf y :: map yleaf (tri r)) ++ g :: gs). rewrite flat_map_app. apply Forall_app. split; [now apply (leaf_no_eof y r CComma)|]. cbn [flat_map]. apply Forall_app. now split.
Qed.
Lemma precord_no_eof ys : no_eof (yield (fst (precord ys))).
Proof. unfold precord. pose proof (pfield_no_eof ys) as F. destruct (pfield ys) as [g r]. pose proof (pfields_no_eof (length r) r) as G. destruct (pfields (length r) r) as [gs r']. cbn [fst gnode yield flat_map] in *. apply Forall_app. now split. Qed.
Lemma pnewline_no_eof ys : no_eof (flat_map yield (fst (pnewline ys))).
Proof. destruct ys as [| y r]; [constructor|]. cbn [pnewline]. destruct (fst y =? CNewline) eqn:E; [|constructor]. now apply (leaf_no_eof y r CNewline). Qed.
Lemma precords_no_eof n : forall ys, no_eof (flat_map yield (fst (precords n ys))).
Proof.
  induction n as [| n IH]; intros ys; [constructor|]. destruct ys as [| y r]; [constructor|]. cbn [precords]. destruct (fst y =? CEof); [constructor|]. pose proof (precord_no_eof (y :: r)) as F. destruct (precord (y :: r)) as [g r1]. pose proof (pnewline_no_eof r1) as G. destruct (pnewline r1) as [l r2]. specialize (IH r2). destruct (precords n r2) as [gs r3]. cbn [fst flat_map] in *.
  rewrite flat_map_app. repeat (apply Forall_app; split); assumption.
Qed.
Lemma before_eof zs : no_eof zs -> forall a u, no_eof a -> a ++ u = zs ++ [(CEof, 0)] -> match u with y :: _ => fst y = CEof | [] => True end -> a = zs.
Proof.
  intros NE. induction NE as [| z zs Hz _ IH]; intros a u Na E1 E2.
  - destruct a as [| y a]; [reflexivity|]. injection E1 as -> _. inversion Na as [| b c Hb _]. now destruct Hb.
  - destruct a as [| y a]; [cbn [app] in E1; subst u; contradiction|]. injection E1 as -> E1. f_equal. apply (IH a u); [now inversion Na | assumption | assumption].
Qed.
