(** The SQL lexer. *)
From Verif Require XmlLexProofs VfsProofs LuaLexProofs.
From Verif Require Import Base Utf8 Utf8Facts ScanSpec CursorModel CursorSpec CursorProofs RopeModel RopeProofs VfsModel LexModel LexSpec LexProofs LexLoopProofs.
From Verif Require Import JsonLangSpec JsonLexProofs LangModel LangSpec LangLexProofs IniModel SqlModel SqlSpec.

(** ** Classes *)
Lemma blankb c : sql_blank c = true <-> blank c.
Proof. unfold sql_blank, blank. now rewrite orb_true_iff, !Z.eqb_eq. Qed.
Lemma eolb c : sql_eol c = true <-> eol c.
Proof. unfold sql_eol, eol. now rewrite orb_true_iff, !Z.eqb_eq. Qed.
Lemma quoteb c : sql_quote c = true <-> quote c.
Proof. unfold sql_quote, quote. now rewrite orb_true_iff, !Z.eqb_eq. Qed.
Lemma digitb c : ascii_digit_c c = true <-> digit c.
Proof. unfold ascii_digit_c, digit. rewrite andb_true_iff, !Z.leb_le. tauto. Qed.
Lemma digit_b c : sql_digit c = true <-> digit_ c.
Proof. unfold sql_digit, digit_. now rewrite orb_true_iff, digitb, Z.eqb_eq. Qed.
Lemma startb c : sql_start c = true <-> start c.
Proof. unfold sql_start, ascii_alpha_c, start. rewrite !orb_true_iff, !andb_true_iff, !Z.leb_le, Z.eqb_eq. tauto. Qed.
Lemma wordb alnum c : sql_word alnum c = true <-> word alnum c.
Proof. unfold sql_word, word. now rewrite orb_true_iff, Z.eqb_eq. Qed.
Lemma expb c : sql_exp c = true <-> exp_mark c.
Proof. unfold sql_exp, exp_mark. now rewrite orb_true_iff, !Z.eqb_eq. Qed.
Lemma signb c : sql_sign c = true <-> sign c.
Proof. unfold sql_sign, sign. now rewrite orb_true_iff, !Z.eqb_eq. Qed.
Definition in_line (c : Z) : bool := negb (sql_eol c).
Lemma lineb c : in_line c = true <-> ~ eol c.
Proof. unfold in_line. now rewrite negb_true_iff, <- not_true_iff_false, eolb. Qed.
Lemma whiteb c : char_is_whitespace c = true <-> white c.
Proof. reflexivity. Qed.
Definition head (p : Z -> bool) (cs : list Z) : bool := sql_opt p (hd_error cs).
Definition sign_or_digit (c : Z) : bool := sql_sign c || ascii_digit_c c.

(** ** What a round reads *)
Fixpoint block1 (cs : list Z) : list Z * list Z :=
  match cs with
  | [] => ([], [])
  | c :: r => if (c =? 42)%Z && head (Z.eqb 47) r then ([42; 47]%Z, tl r) else (c :: fst (block1 r), snd (block1 r))
  end.
Fixpoint quoted1 (q : Z) (e : bool) (cs : list Z) : list Z * list Z :=
  match cs with
  | [] => ([], [])
  | c :: r =>
      if e then let '(s, t) := quoted1 q false r in (c :: s, t)
      else if (c =? q)%Z then ([c], r)
      else if (c =? 92)%Z then let '(s, t) := quoted1 q true r in (c :: s, t)
      else if sql_eol c then ([c], r)
      else let '(s, t) := quoted1 q false r in (c :: s, t)
  end.
Definition digits1 (cs : list Z) : list Z * list Z := (char_run sql_digit cs, drop_run sql_digit cs).
Definition starts_fraction (cs : list Z) : bool := match cs with p :: d :: _ => (p =? 46)%Z && ascii_digit_c d | _ => false end.
Definition fraction1 (cs : list Z) : list Z * list Z :=
  if starts_fraction cs then (46%Z :: fst (digits1 (tl cs)), snd (digits1 (tl cs))) else ([], cs).
Definition starts_exponent (cs : list Z) : bool := match cs with x :: d :: _ => sql_exp x && sign_or_digit d | _ => false end.
Definition exponent1 (cs : list Z) : list Z * list Z :=
  match cs with
  | x :: r => if starts_exponent cs then (x :: opt sql_sign r ++ fst (digits1 (after_opt sql_sign r)), snd (digits1 (after_opt sql_sign r))) else ([], cs)
  | [] => ([], [])
  end.
Definition number1 (cs : list Z) : bool * list Z * list Z :=
  match cs with
  | [] => (false, [], [])
  | c :: r =>
      let '(i, r1) := digits1 r in let '(f, r2) := fraction1 r1 in let '(e, r3) := exponent1 r2 in
      (starts_fraction r1 || starts_exponent r2, c :: i ++ f ++ e, r3)
  end.
Definition mark1 (cs : list Z) : option (list Z * nat) := find (fun p => prefixb (fst p) cs) marks.
Section Read.
  Variable alnum : Z -> bool.
  Variable upper : list Z -> list Z.
  Definition sql1 (cs : list Z) : option nat * list Z * list Z :=
    match cs with
    | [] => (None, [], [])
    | c :: r =>
        if sql_blank c then (Some QWhitespace, c :: char_run char_is_whitespace r, drop_run char_is_whitespace r)
        else if (c =? 10)%Z then (Some QNewline, [10%Z], r)
        else if (c =? 13)%Z then if head (Z.eqb 10) r then (Some QNewline, [13; 10]%Z, tl r) else (Some QNewline, [13%Z], r)
        else if (c =? 45)%Z && head (Z.eqb 45) r then (Some QComment, 45%Z :: 45%Z :: char_run in_line (tl r), drop_run in_line (tl r))
        else if (c =? 47)%Z && head (Z.eqb 42) r then (Some QComment, 47%Z :: 42%Z :: fst (block1 (tl r)), snd (block1 (tl r)))
        else if sql_quote c then (Some QStringLiteral, c :: fst (quoted1 c false r), snd (quoted1 c false r))
        else if ascii_digit_c c then let '(b, s, t) := number1 cs in (Some (if b then QFloatLiteral else QNumberLiteral), s, t)
        else if sql_start c then (Some (sql_word_kind upper (encode (c :: char_run (sql_word alnum) r))), c :: char_run (sql_word alnum) r, drop_run (sql_word alnum) r)
        else match mark1 cs with
        | Some (s, k) => (Some k, s, skipn (length s) cs)
        | None => if (c =? 33)%Z then (None, [c], r) else (Some QError, [c], r)
        end
    end.
End Read.

(** ** The readers cut *)
Lemma head_cons x cs : head (Z.eqb x) cs = true -> cs = x :: tl cs.
Proof. destruct cs as [| c r]; [discriminate|]. unfold head. cbn. intros E. apply Z.eqb_eq in E. now subst. Qed.
Lemma block1_app cs : fst (block1 cs) ++ snd (block1 cs) = cs.
Proof.
  induction cs as [| c r IH]; [reflexivity|]. cbn [block1]. destruct ((c =? 42)%Z && head (Z.eqb 47) r) eqn:E; cbn [fst snd app].
  - apply andb_true_iff in E. destruct E as [E1 E2]. apply Z.eqb_eq in E1. subst c. apply head_cons in E2. now rewrite <- E2.
  - now rewrite IH.
Qed.
Lemma quoted1_app q cs : forall e, fst (quoted1 q e cs) ++ snd (quoted1 q e cs) = cs.
Proof.
  induction cs as [| c r IH]; intros e; [reflexivity|]. cbn [quoted1].
  assert (G : forall e', fst (let '(s, t) := quoted1 q e' r in (c :: s, t)) ++ snd (let '(s, t) := quoted1 q e' r in (c :: s, t)) = c :: r).
  { intros e'. specialize (IH e'). destruct (quoted1 q e' r) as [s t]. cbn in *. now rewrite IH. }
  destruct e; [apply G|]. destruct (c =? q)%Z; [reflexivity|]. destruct (c =? 92)%Z; [apply G|]. destruct (sql_eol c); [reflexivity | apply G].
Qed.
Lemma digits1_app cs : fst (digits1 cs) ++ snd (digits1 cs) = cs.
Proof. apply run_drop. Qed.
Lemma fraction1_app cs : fst (fraction1 cs) ++ snd (fraction1 cs) = cs.
Proof.
  unfold fraction1. destruct (starts_fraction cs) eqn:E; [|reflexivity]. destruct cs as [| p [| d t]]; try discriminate. cbn [starts_fraction] in E. apply andb_true_iff in E. destruct E as [E _]. apply Z.eqb_eq in E. subst p. cbn [tl fst snd app]. now rewrite digits1_app.
Qed.
Lemma exponent1_app cs : fst (exponent1 cs) ++ snd (exponent1 cs) = cs.
Proof. destruct cs as [| e r]; [reflexivity|]. unfold exponent1. destruct (starts_exponent (e :: r)); [|reflexivity]. cbn [fst snd app]. now rewrite <- app_assoc, digits1_app, opt_app. Qed.
Lemma number1_app c r : let '(_, s, t) := number1 (c :: r) in s ++ t = c :: r.
Proof.
  unfold number1. pose proof (digits1_app r) as D. destruct (digits1 r) as [i r1]. pose proof (fraction1_app r1) as F. destruct (fraction1 r1) as [f r2]. pose proof (exponent1_app r2) as X. destruct (exponent1 r2) as [e r3]. cbn [fst snd app] in *. now rewrite <- !app_assoc, X, F, D.
Qed.
Lemma sql1_app alnum upper c r : let '(_, s, t) := sql1 alnum upper (c :: r) in s ++ t = c :: r /\ s <> [].
Proof.
  cbn [sql1]. destruct (sql_blank c). { split; [|discriminate]. cbn [app]. now rewrite run_drop. }
  destruct (Z.eqb_spec c 10) as [-> | ]; [split; [reflexivity | discriminate]|].
  destruct (Z.eqb_spec c 13) as [-> | ]. { destruct (head (Z.eqb 10) r) eqn:H; [|split; [reflexivity | discriminate]]. apply head_cons in H. split; [|discriminate]. cbn. now rewrite <- H. }
  destruct ((c =? 45)%Z && head (Z.eqb 45) r) eqn:C1. { apply andb_true_iff in C1. destruct C1 as [C1 C2]. apply Z.eqb_eq in C1. subst c. apply head_cons in C2. split; [|discriminate]. cbn [app]. now rewrite run_drop, <- C2. }
  destruct ((c =? 47)%Z && head (Z.eqb 42) r) eqn:C2. { apply andb_true_iff in C2. destruct C2 as [C2 C3]. apply Z.eqb_eq in C2. subst c. apply head_cons in C3. split; [|discriminate]. cbn [app]. now rewrite block1_app, <- C3. }
  destruct (sql_quote c). { split; [|discriminate]. cbn [app]. now rewrite quoted1_app. }
  destruct (ascii_digit_c c). { pose proof (number1_app c r) as A. destruct (number1 (c :: r)) as [[b s] t] eqn:N. split; [exact A|]. intros ->. unfold number1 in N. destruct (digits1 r), (fraction1 _), (exponent1 _). discriminate. }
  destruct (sql_start c). { split; [|discriminate]. cbn [app]. now rewrite run_drop. }
  destruct (mark1 (c :: r)) as [[s k]|] eqn:F; [|destruct (c =? 33)%Z; split; [reflexivity | discriminate | reflexivity | discriminate]].
  apply find_some in F. destruct F as [I P]. cbn [fst] in P. split; [symmetry; now apply XmlLexProofs.prefixb_skip|]. intros ->. assert (H : forallb (fun p => match fst p with [] => false | _ => true end) marks = true) by reflexivity. rewrite forallb_forall in H. specialize (H _ I). discriminate.
Qed.

Section Steps.
  Variable alnum : Z -> bool.
  Variable upper : str -> str.
  Variable text : str.
  Let src := flat_source text.
  Hypothesis Hs : serves src text.
  Notation view := (view src text).
  Notation stepped := (stepped src text).

  Lemma token_view k l l0 l' r : lx_toks l' = lx_toks l -> lx_pos l0 = lx_pos l -> view l' r -> exists b x, sql_token k l0 l' = Some (b, x) /\ stepped l x (Some k) r.
  Proof. intros T O V. do 2 eexists. split; [reflexivity|]. split; [exact V|]. cbn [add_token lx_toks]. rewrite T, O. reflexivity. Qed.
  Lemma is_head x cs : is_char x (hd_error cs) = head (Z.eqb x) cs.
  Proof. unfold head. destruct cs; [reflexivity|]. cbn. apply Z.eqb_sym. Qed.
  Lemma current_view l cs : view l cs -> exists l', lx_current src l = (hd_error cs, l') /\ view l' cs /\ lx_pos l' = lx_pos l /\ lx_toks l' = lx_toks l.
  Proof. exact (view_current src text Hs l cs). Qed.
  Lemma over1 l cs x : (0 <= x < 128)%Z -> head (Z.eqb x) cs = true -> view l cs -> view (lx_advance src l 1) (tl cs) /\ lx_toks (lx_advance src l 1) = lx_toks l.
  Proof. intros A H V. apply head_cons in H. rewrite H in V. now apply (view_advance1 src text Hs l x). Qed.
  Lemma over_lit p l r : ascii_lit p -> view l (p ++ r) -> view (lx_advance src l (length p)) r /\ lx_toks (lx_advance src l (length p)) = lx_toks l.
  Proof. intros A V. exact (XmlLexProofs.view_over src text Hs p r l A V). Qed.
  Lemma starts_view l cs p : ascii_lit p -> view l cs -> exists l', lx_starts_with src l p = Some (prefixb p cs, l') /\ view l' cs /\ lx_pos l' = lx_pos l /\ lx_toks l' = lx_toks l.
  Proof.
    intros A V. destruct (view_starts src text Hs l cs p A V) as (b & l' & E & V' & O & T & B). exists l'. split; [|now split]. rewrite E. repeat f_equal. apply Bool.eq_iff_eq_true. rewrite B, XmlLexProofs.prefixb_spec. reflexivity.
  Qed.
  Definition did (l : lexer) (res : option (bool * lexer)) (k : nat) (t : list Z) : Prop := exists b x, res = Some (b, x) /\ stepped l x (Some k) t.

  Lemma whitespace_view l c r : sql_blank c = true -> view l (c :: r) -> did l (sql_whitespace text l) QWhitespace (drop_run char_is_whitespace r).
  Proof.
    intros B V. unfold sql_whitespace, scan_whitespace. fold src. assert (W : char_is_whitespace c = true) by (apply blankb in B; destruct B as [-> | ->]; reflexivity).
    destruct (view_take src text Hs l _ char_is_whitespace V) as (l' & -> & V' & O & T). unfold drop_run in V'. cbn [char_run] in V', O. rewrite W in V', O. cbn [length skipn] in V'. fold (drop_run char_is_whitespace r) in V'.
    assert (L : lx_pos l <? lx_pos l' = true). { apply Nat.ltb_lt. rewrite O. cbn [encode]. rewrite app_length, encode_char_length. pose proof (char_len_pos c). lia. }
    rewrite L. do 2 eexists. split; [reflexivity|]. split; [exact V'|]. cbn [add_token lx_toks]. now rewrite T.
  Qed.
  Lemma newline_view l c r : sql_eol c = true -> view l (c :: r) ->
    did l (sql_newline text l) QNewline (if (c =? 10)%Z then r else if head (Z.eqb 10) r then tl r else r).
  Proof.
    intros B V. unfold sql_newline. fold src. destruct (current_view l _ V) as (l1 & -> & V1 & O1 & T1). cbn [hd_error is_char]. destruct (Z.eqb_spec c 10) as [-> | N].
    - destruct (view_advance1 src text Hs l1 10 r ltac:(lia) V1) as (V2 & T2). apply (token_view QNewline l l); [congruence | reflexivity | assumption].
    - apply eolb in B. destruct B as [B | ->]; [contradiction|]. change (13 =? 13)%Z with true. cbv iota. destruct (view_advance1 src text Hs l1 13 r ltac:(lia) V1) as (V2 & T2). destruct (current_view _ _ V2) as (l2 & -> & V3 & O3 & T3). rewrite is_head. destruct (head (Z.eqb 10) r) eqn:H.
      + destruct (over1 l2 _ 10 ltac:(lia) H V3) as (V4 & T4). apply (token_view QNewline l l); [congruence | reflexivity | assumption].
      + apply (token_view QNewline l l); [congruence | reflexivity | assumption].
  Qed.
  Lemma block_view : forall fuel cs l, view l cs -> length cs < fuel -> exists l', sql_block text fuel l = Some l' /\ view l' (snd (block1 cs)) /\ lx_toks l' = lx_toks l.
  Proof.
    induction fuel as [| f IH]; intros cs l V L; [lia|]. cbn [sql_block]. fold src. destruct (current_view l cs V) as (l1 & -> & V1 & O1 & T1). destruct cs as [| c r]; cbn [hd_error].
    - exists l1. now split.
    - destruct (starts_view l1 _ (lit "*/") ltac:(repeat constructor; lia) V1) as (l2 & -> & V2 & O2 & T2). change (lit "*/") with [42; 47]%Z in *. cbn [prefixb block1]. rewrite (Z.eqb_sym 42 c). replace (match r with [] => false | d :: _ => (47 =? d)%Z && true end) with (head (Z.eqb 47) r) by (destruct r as [| d r]; [reflexivity|]; cbn [head hd_error sql_opt]; now rewrite andb_true_r).
      destruct ((c =? 42)%Z && head (Z.eqb 47) r) eqn:E.
      + apply andb_true_iff in E. destruct E as [E1 E2]. apply Z.eqb_eq in E1. subst c. apply head_cons in E2. rewrite E2 in V2. destruct (over_lit [42; 47]%Z l2 (tl r) ltac:(repeat constructor; lia) V2) as (V3 & T3). eexists. split; [reflexivity|]. split; [exact V3 | etransitivity; [exact T3 | congruence]].
      + destruct (view_advance src text Hs l2 c r V2) as (V3 & _ & T3). cbn [length] in L. destruct (IH r _ V3 ltac:(lia)) as (l' & E' & V' & T'). exists l'. split; [exact E'|]. split; [exact V' | congruence].
  Qed.
  Lemma line_comment_view l r : view l (45%Z :: 45%Z :: r) -> did l (sql_comment text l) QComment (drop_run in_line r).
  Proof.
    intros V. unfold sql_comment. fold src. destruct (starts_view l _ (lit "--") ltac:(repeat constructor; lia) V) as (l1 & -> & V1 & O1 & T1). change (prefixb (lit "--") (45%Z :: 45%Z :: r)) with true. cbv iota.
    destruct (over_lit [45; 45]%Z l1 r ltac:(repeat constructor; lia) V1) as (V2 & T2). destruct (view_take src text Hs _ _ in_line V2) as (l3 & E3 & V3 & O3 & T3). unfold in_line in E3 at 1. cbn [length] in *. rewrite E3. apply (token_view QComment l l); [congruence | reflexivity | assumption].
  Qed.
  Lemma block_comment_view l r : view l (47%Z :: 42%Z :: r) -> did l (sql_comment text l) QComment (snd (block1 r)).
  Proof.
    intros V. unfold sql_comment. fold src. destruct (starts_view l _ (lit "--") ltac:(repeat constructor; lia) V) as (l1 & -> & V1 & O1 & T1). change (prefixb (lit "--") (47%Z :: 42%Z :: r)) with false. cbv iota.
    destruct (starts_view l1 _ (lit "/*") ltac:(repeat constructor; lia) V1) as (l2 & -> & V2 & O2 & T2). change (prefixb (lit "/*") (47%Z :: 42%Z :: r)) with true. cbv iota.
    destruct (over_lit [47; 42]%Z l2 r ltac:(repeat constructor; lia) V2) as (V3 & T3). destruct (block_view (scan_fuel src) r _ V3) as (l4 & E4 & V4 & T4). { exact (view_length no_char no_char src text Hs _ _ V3). } cbn [length] in *. rewrite E4. apply (token_view QComment l l); [congruence | reflexivity | assumption].
  Qed.
  Lemma quoted_view q : (0 <= q < 128)%Z -> forall fuel cs e l, view l cs -> length cs < fuel -> exists l', sql_quoted text q fuel e l = Some l' /\ view l' (snd (quoted1 q e cs)) /\ lx_toks l' = lx_toks l.
  Proof.
    intros Q. induction fuel as [| f IH]; intros cs e l V L; [lia|]. cbn [sql_quoted]. fold src. destruct (current_view l cs V) as (l1 & -> & V1 & O1 & T1). destruct cs as [| c r]; cbn [hd_error].
    - exists l1. now split.
    - destruct (view_advance src text Hs l1 c r V1) as (V2 & _ & T2). cbn [length] in L. cbn [quoted1]. cbv zeta.
      assert (G : forall e', exists l', sql_quoted text q f e' (lx_advance src l1 (char_len c)) = Some l' /\ view l' (snd (let '(s, t) := quoted1 q e' r in (c :: s, t))) /\ lx_toks l' = lx_toks l).
      { intros e'. destruct (IH r e' _ V2 ltac:(lia)) as (l' & E & V' & T'). exists l'. split; [assumption|]. destruct (quoted1 q e' r). split; [assumption | congruence]. }
      destruct e; [rewrite andb_false_r; apply G|]. cbn [negb]. rewrite andb_true_r. destruct (Z.eqb_spec c q) as [-> | Nq].
      + destruct (view_advance1 src text Hs l1 q r Q V1) as (V3 & T3). eexists. split; [reflexivity|]. split; [exact V3 | congruence].
      + destruct (Z.eqb_spec c 92) as [-> | N92]; [exact (G true)|]. destruct (sql_eol c); [|apply G]. eexists. split; [reflexivity|]. split; [exact V2 | congruence].
  Qed.
  Lemma string_view l q r : sql_quote q = true -> view l (q :: r) -> did l (sql_string text l) QStringLiteral (snd (quoted1 q false r)).
  Proof.
    intros Q V. unfold sql_string. fold src. destruct (current_view l _ V) as (l1 & -> & V1 & O1 & T1). cbn [hd_error]. rewrite Q.
    assert (A : (0 <= q < 128)%Z) by (apply quoteb in Q; unfold quote in Q; lia). destruct (view_advance1 src text Hs l1 q r A V1) as (V2 & T2). destruct (quoted_view q A (scan_fuel src) r false _ V2) as (l3 & -> & V3 & T3).
    { exact (view_length no_char no_char src text Hs _ _ V2). } apply token_view; [congruence | reflexivity | assumption].
  Qed.

  (** *** Numbers *)
  Lemma digits_view l cs : view l cs -> exists l', sql_digits text l = Some l' /\ view l' (snd (digits1 cs)) /\ lx_toks l' = lx_toks l.
  Proof. intros V. destruct (view_take src text Hs l cs sql_digit V) as (l' & E & V' & _ & T). exists l'. now split. Qed.
  Lemma fraction_view l cs : view l cs -> exists l', sql_fraction text l = Some (starts_fraction cs, l') /\ view l' (snd (fraction1 cs)) /\ lx_toks l' = lx_toks l.
  Proof.
    intros V. unfold sql_fraction, fraction1. fold src. destruct (current_view l _ V) as (l1 & -> & V1 & O1 & T1). destruct cs as [| p r]; [exists l1; now split|]. cbn [hd_error is_char].
    destruct (Z.eqb_spec p 46) as [-> | N]; cbn [andb].
    - rewrite (view_peek1 src text Hs l1 46 r ltac:(lia) V1). cbn [starts_fraction]. change (46 =? 46)%Z with true. cbn [andb]. destruct r as [| d r]; [exists l1; now split|]. cbn [hd_error sql_opt]. destruct (ascii_digit_c d); [|exists l1; now split].
      destruct (view_advance1 src text Hs l1 46 _ ltac:(lia) V1) as (V2 & T2). destruct (digits_view _ _ V2) as (l3 & -> & V3 & T3). exists l3. split; [reflexivity|]. split; [exact V3 | congruence].
    - exists l1. replace (starts_fraction (p :: r)) with false; [now split|]. destruct r as [| d r]; [reflexivity|]. cbn [starts_fraction]. apply Z.eqb_neq in N. now rewrite N.
  Qed.
  Lemma exponent_view l cs : view l cs -> exists l', sql_exponent text l = Some (starts_exponent cs, l') /\ view l' (snd (exponent1 cs)) /\ lx_toks l' = lx_toks l.
  Proof.
    intros V. unfold sql_exponent. fold src. destruct (current_view l _ V) as (l1 & -> & V1 & O1 & T1). destruct cs as [| x r]; [exists l1; now split|]. cbn [hd_error sql_opt]. unfold exponent1.
    destruct (sql_exp x) eqn:X; cbn [andb].
    - assert (A : (0 <= x < 128)%Z) by (apply expb in X; unfold exp_mark in X; lia). rewrite (view_peek1 src text Hs l1 x r A V1). cbn [starts_exponent]. rewrite X. cbn [andb]. destruct r as [| d r]; [exists l1; now split|]. cbn [hd_error sql_opt]. fold (sign_or_digit d). destruct (sign_or_digit d); [|exists l1; now split].
      destruct (view_advance1 src text Hs l1 x _ A V1) as (V2 & T2). destruct (current_view _ _ V2) as (l2 & -> & V3 & O3 & T3). cbn [hd_error sql_opt opt after_opt snd].
      destruct (sql_sign d) eqn:G.
      + assert (Ag : (0 <= d < 128)%Z) by (apply signb in G; unfold sign in G; lia). destruct (view_advance1 src text Hs l2 d r Ag V3) as (V4 & T4). destruct (digits_view _ _ V4) as (l5 & -> & V5 & T5). exists l5. split; [reflexivity|]. split; [exact V5 | congruence].
      + destruct (digits_view _ _ V3) as (l5 & -> & V5 & T5). exists l5. split; [reflexivity|]. split; [exact V5 | congruence].
    - exists l1. replace (starts_exponent (x :: r)) with false; [now split|]. destruct r as [| d r]; [reflexivity|]. cbn [starts_exponent]. now rewrite X.
  Qed.
  Lemma number_view l c r : ascii_digit_c c = true -> view l (c :: r) -> let '(b, s, t) := number1 (c :: r) in did l (sql_number text l) (if b then QFloatLiteral else QNumberLiteral) t.
  Proof.
    intros D V. unfold sql_number, number1. fold src. destruct (current_view l _ V) as (l1 & -> & V1 & O1 & T1). cbn [hd_error sql_opt]. rewrite D.
    assert (A : (0 <= c < 128)%Z) by (apply digitb in D; unfold digit in D; lia). destruct (view_advance1 src text Hs l1 c r A V1) as (V2 & T2).
    destruct (digits_view _ _ V2) as (l3 & -> & V3 & T3). destruct (digits1 r) as [i r1]. cbn [snd] in V3. destruct (fraction_view _ _ V3) as (l4 & -> & V4 & T4). destruct (fraction1 r1) as [f r2]. cbn [snd] in V4. destruct (exponent_view _ _ V4) as (l5 & -> & V5 & T5). destruct (exponent1 r2) as [e r3]. cbn [snd] in V5.
    apply token_view; [congruence | reflexivity | assumption].
  Qed.

  (** *** Words and marks *)
  Lemma view_slice l l' s r : view l (s ++ r) -> view l' r -> flat_text_in text (lx_pos l) (lx_pos l') = encode s.
  Proof.
    intros V V'. pose proof (view_pos src text l _ V) as P. pose proof (view_pos src text l' _ V') as P'. rewrite encode_app, app_length in P.
    rewrite flat_text_in_spec; [|lia | lia | apply V | apply V']. destruct V as [_ (_ & L & E)]. unfold substr in *. rewrite firstn_all2 in E by (rewrite skipn_length; lia). rewrite E, encode_app.
    replace (lx_pos l' - lx_pos l) with (length (encode s)) by lia. now rewrite firstn_app, firstn_all, Nat.sub_diag, firstn_O, app_nil_r.
  Qed.
  Lemma identifier_view l c r : view l (c :: r) ->
    did l (sql_identifier alnum upper text l) (sql_word_kind upper (encode (c :: char_run (sql_word alnum) r))) (drop_run (sql_word alnum) r).
  Proof.
    intros V. unfold sql_identifier. fold src. destruct (current_view l _ V) as (l1 & -> & V1 & O1 & T1). cbn [hd_error]. destruct (view_advance src text Hs l1 c r V1) as (V2 & _ & T2). destruct (view_take src text Hs _ _ (sql_word alnum) V2) as (l3 & -> & V3 & O3 & T3).
    rewrite (view_slice l l3 (c :: char_run (sql_word alnum) r) (drop_run (sql_word alnum) r)); [|cbn [app]; now rewrite run_drop | assumption]. apply token_view; [congruence | reflexivity | assumption].
  Qed.
  Lemma first_view ops : forall l l0 cs, Forall (fun p => ascii_lit (fst p)) ops -> view l cs -> lx_pos l = lx_pos l0 -> lx_toks l = lx_toks l0 ->
    match find (fun p => prefixb (fst p) cs) ops with
    | Some (s, k) => did l0 (sql_first text ops l) k (skipn (length s) cs)
    | None => exists b l', sql_first text ops l = Some (b, l') /\ view l' cs /\ lx_pos l' = lx_pos l0 /\ lx_toks l' = lx_toks l0
    end.
  Proof.
    induction ops as [| [op kind] ops IH]; intros l l0 cs F V O T; cbn [find sql_first]; [exists false, l; now split|]. fold src. inversion F as [| ? ? A F']; subst. cbn [fst] in *. destruct (starts_view l cs op A V) as (l1 & -> & V1 & O1 & T1). destruct (prefixb op cs) eqn:P.
    - apply XmlLexProofs.prefixb_skip in P. rewrite P in V1. destruct (over_lit op l1 _ A V1) as (V2 & T2). apply token_view; [congruence | assumption | assumption].
    - apply IH; [assumption | assumption | congruence | congruence].
  Qed.
  Lemma ops_ascii : Forall (fun p => ascii_lit (fst p)) sql_ops.
  Proof. repeat constructor; cbn; lia. Qed.
  Lemma single_view l c r kind : find (fun p => (c =? fst p)%Z) sql_singles = Some (c, kind) -> view l (c :: r) -> did l (sql_single text l) kind r.
  Proof.
    intros F V. unfold sql_single. fold src. destruct (current_view l _ V) as (l1 & -> & V1 & O1 & T1). cbn [hd_error]. rewrite F. destruct (view_advance src text Hs l1 c r V1) as (V2 & _ & T2). apply token_view; [congruence | reflexivity | assumption].
  Qed.
  Definition ops1 (cs : list Z) : option (list Z * nat) := find (fun p => prefixb (fst p) cs) sql_ops.
  Lemma mark_ops c r : existsb (Z.eqb c) (lit "(),;.") = false -> mark1 (c :: r) = ops1 (c :: r).
  Proof.
    intros E. unfold mark1, ops1. change marks with (sql_ops ++ [(lit "(", QLeftParen); (lit ")", QRightParen); (lit ",", QComma); (lit ";", QSemicolon); (lit ".", QDot)]).
    generalize sql_ops. intros ops. induction ops as [| p ops IH]; cbn [app find]; [|destruct (prefixb (fst p) (c :: r)); [reflexivity | exact IH]].
    change (existsb (Z.eqb c) [40; 41; 44; 59; 46]%Z = false) in E. cbn [existsb] in E. rewrite !orb_false_iff in E. destruct E as (E1 & E2 & E3 & E4 & E5 & _).
    change (lit "(") with [40]%Z. change (lit ")") with [41]%Z. change (lit ",") with [44]%Z. change (lit ";") with [59]%Z. change (lit ".") with [46]%Z. cbn [fst prefixb]. rewrite (Z.eqb_sym 40), (Z.eqb_sym 41), (Z.eqb_sym 44), (Z.eqb_sym 59), (Z.eqb_sym 46), E1, E2, E3, E4, E5. reflexivity.
  Qed.
  Definition marks_read : list (list Z * nat) := Eval vm_compute in marks.
  Lemma mark_other c r : existsb (Z.eqb c) (lit "<>!=+*%") = false -> existsb (Z.eqb c) (lit "(),;.") = false -> c <> 45%Z -> c <> 47%Z -> mark1 (c :: r) = None.
  Proof.
    intros E1 E2 N1 N2. unfold mark1. change marks with marks_read. change (lit "<>!=+*%") with [60; 62; 33; 61; 43; 42; 37]%Z in E1. change (lit "(),;.") with [40; 41; 44; 59; 46]%Z in E2. cbn [existsb] in E1, E2.
    apply Z.eqb_neq in N1, N2. unfold marks_read. cbn [find fst prefixb]. rewrite !(Z.eqb_sym _ c). repeat match goal with H : _ /\ _ |- _ => destruct H | H : _ || _ = false |- _ => apply orb_false_iff in H end. repeat match goal with H : (c =? _)%Z = false |- _ => rewrite H; clear H end. reflexivity.
  Qed.

  (** *** A round *)
  Lemma rule_view l c r : view l (c :: r) -> let '(k, s, t) := sql1 alnum upper (c :: r) in
    exists b x, sql_rule alnum upper text c l = Some (b, x) /\ match k with Some k => stepped l x (Some k) t | None => t = r /\ view x (c :: r) /\ lx_pos x = lx_pos l /\ lx_toks x = lx_toks l end.
  Proof.
    intros V. unfold sql_rule. cbn [sql1]. fold src. destruct (sql_blank c) eqn:B1; [exact (whitespace_view l c r B1 V)|].
    pose proof (newline_view l c r) as Nl. unfold sql_eol in *. destruct (c =? 10)%Z; cbn [orb] in *; [exact (Nl eq_refl V)|]. destruct (c =? 13)%Z. { specialize (Nl eq_refl V). destruct (head (Z.eqb 10) r); exact Nl. } clear Nl.
    assert (Ops : forall l1, view l1 (c :: r) -> lx_pos l1 = lx_pos l -> lx_toks l1 = lx_toks l -> existsb (Z.eqb c) (lit "(),;.") = false -> (mark1 (c :: r) = None -> c = 33%Z) ->
      let '(k, s, t) := match mark1 (c :: r) with Some (s, k) => (Some k, s, skipn (length s) (c :: r)) | None => if (c =? 33)%Z then (None, [c], r) else (Some QError, [c], r) end in
      exists b x, sql_operators text l1 = Some (b, x) /\ match k with Some k => stepped l x (Some k) t | None => t = r /\ view x (c :: r) /\ lx_pos x = lx_pos l /\ lx_toks x = lx_toks l end).
    { intros l1 V1 O1 T1 E Bang. rewrite (mark_ops c r E) in *. pose proof (first_view sql_ops l1 l (c :: r) ops_ascii V1 O1 T1) as F. unfold ops1, sql_operators in *. destruct (find _ sql_ops) as [[s k]|]; [exact F|]. rewrite (proj2 (Z.eqb_eq c 33) (Bang eq_refl)). destruct F as (b & x & E' & F). exists b, x. split; [exact E'|]. now split. }
    assert (Com : forall open, ascii_lit open -> exists l1, sql_comment_or text open l = (if prefixb open (c :: r) then sql_comment text l1 else sql_operators text l1) /\ view l1 (c :: r) /\ lx_pos l1 = lx_pos l /\ lx_toks l1 = lx_toks l).
    { intros open A. unfold sql_comment_or. fold src. destruct (starts_view l _ open A V) as (l1 & -> & R). exists l1. split; [reflexivity | exact R]. }
    assert (Pre : forall d, match r with [] => false | e :: _ => (d =? e)%Z && true end = head (Z.eqb d) r) by (intros d; destruct r as [| e r0]; [reflexivity|]; cbn [head hd_error sql_opt]; now rewrite andb_true_r).
    destruct (Z.eqb_spec c 45) as [-> | N45].
    { destruct (Com (lit "--") ltac:(repeat constructor; lia)) as (l1 & -> & V1 & O1 & T1). change (prefixb (lit "--") (45%Z :: r)) with (match r with [] => false | e :: _ => (45 =? e)%Z && true end). rewrite Pre. cbn [andb]. destruct (head (Z.eqb 45) r) eqn:H.
      - apply head_cons in H. rewrite H in V1. destruct (line_comment_view l1 _ V1) as (b & x & E & St). exists b, x. split; [exact E|]. unfold JsonLexProofs.stepped in *. now rewrite O1, T1 in St.
      - change ((45 =? 47)%Z) with false. cbn [andb]. change (sql_quote 45) with false. change (ascii_digit_c 45) with false. change (sql_start 45) with false. cbv iota. apply Ops; [assumption | assumption | assumption | reflexivity |]. unfold mark1. change marks with marks_read. unfold marks_read. cbn [find fst prefixb]. discriminate. }
    cbn [andb]. destruct (Z.eqb_spec c 47) as [-> | N47].
    { destruct (Com (lit "/*") ltac:(repeat constructor; lia)) as (l1 & -> & V1 & O1 & T1). change (prefixb (lit "/*") (47%Z :: r)) with (match r with [] => false | e :: _ => (42 =? e)%Z && true end). rewrite Pre. cbn [andb]. destruct (head (Z.eqb 42) r) eqn:H.
      - apply head_cons in H. rewrite H in V1. destruct (block_comment_view l1 _ V1) as (b & x & E & St). exists b, x. split; [exact E|]. unfold JsonLexProofs.stepped in *. now rewrite O1, T1 in St.
      - change (sql_quote 47) with false. change (ascii_digit_c 47) with false. change (sql_start 47) with false. cbv iota. apply Ops; [assumption | assumption | assumption | reflexivity |]. unfold mark1. change marks with marks_read. unfold marks_read. cbn [find fst prefixb]. discriminate. }
    cbn [andb]. destruct (sql_quote c) eqn:B5; [exact (string_view l c r B5 V)|]. destruct (ascii_digit_c c) eqn:B6. { pose proof (number_view l c r B6 V) as Nv. destruct (number1 (c :: r)) as [[b s] t]. exact Nv. }
    destruct (sql_start c) eqn:B7; [exact (identifier_view l c r V)|].
    destruct (existsb (Z.eqb c) (lit "<>!=+*%")) eqn:B8.
    { apply Ops; [assumption | reflexivity | reflexivity | |].
      - apply existsb_exists in B8. destruct B8 as (x & I & Q). apply Z.eqb_eq in Q. subst x. cbn in I. repeat (destruct I as [<- | I]; [reflexivity|]). destruct I.
      - intros M. apply existsb_exists in B8. destruct B8 as (x & I & Q). apply Z.eqb_eq in Q. subst x. pose proof (find_none _ _ M) as F. cbn in I.
        assert (G : forall k, In ([c], k) marks -> c = 33%Z) by (intros k Ik; specialize (F _ Ik); cbn [fst prefixb] in F; rewrite Z.eqb_refl in F; discriminate).
        repeat (destruct I as [<- | I]; [first [reflexivity | eapply G; vm_compute; repeat (first [left; reflexivity | right])]|]). destruct I. }
    destruct (existsb (Z.eqb c) (lit "(),;.")) eqn:B9.
    { apply existsb_exists in B9. destruct B9 as (x & I & Q). apply Z.eqb_eq in Q. subst x. cbn in I. assert (M : exists k, mark1 (c :: r) = Some ([c], k) /\ find (fun p => (c =? fst p)%Z) sql_singles = Some (c, k)).
      { repeat (destruct I as [<- | I]; [eexists; split; reflexivity|]). destruct I. }
      destruct M as (k & -> & F). exact (single_view l c r k F V). }
    rewrite (mark_other c r B8 B9 N45 N47). assert (N33 : (c =? 33)%Z = false). { change (lit "<>!=+*%") with [60; 62; 33; 61; 43; 42; 37]%Z in B8. cbn [existsb] in B8. repeat match goal with H : _ || _ = false |- _ => apply orb_false_iff in H; destruct H end. assumption. } rewrite N33.
    destruct (view_advance src text Hs l c r V) as (V2 & _ & T2). apply token_view; [assumption | reflexivity | assumption].
  Qed.
  Lemma round_view l c r : view l (c :: r) -> let '(k, s, t) := sql1 alnum upper (c :: r) in exists l', sql_round alnum upper text l = Some l' /\ stepped l l' k t.
  Proof.
    intros V. unfold sql_round. fold src. destruct (current_view l _ V) as (l1 & -> & V1 & O1 & T1). cbn [hd_error]. pose proof (rule_view l1 c r V1) as R. pose proof (sql1_app alnum upper c r) as A. destruct (sql1 alnum upper (c :: r)) as [[k s] t]. destruct R as (b & x & -> & R), A as [A N]. destruct k as [k|].
    - assert (St : stepped l x (Some k) t) by (unfold JsonLexProofs.stepped in *; now rewrite O1, T1 in R). eexists. split; [reflexivity|]. rewrite <- A in V. now rewrite (guard_moved no_char no_char src text l x s t (Some k) V N St).
    - destruct R as (-> & V2 & O2 & T2). eexists. split; [reflexivity|]. apply (guard_stuck src text Hs l x c r V2); congruence.
  Qed.
End Steps.

(** ** Pieces of the specification *)
Lemma run_plain P p s r : (forall c, p c = true <-> P c) -> run_of P s r -> char_run p (s ++ r) = s /\ drop_run p (s ++ r) = r.
Proof. exact (XmlLexProofs.run_plain P p s r). Qed.
Lemma run_spec P p cs : (forall c, p c = true <-> P c) -> run_of P (char_run p cs) (drop_run p cs).
Proof. exact (XmlLexProofs.run_spec P p cs). Qed.
Lemma head_ends P p cs : (forall c, p c = true <-> P c) -> head p cs = false <-> ends P cs.
Proof.
  intros H. destruct cs as [| c r]; [split; [intros _ c; discriminate | reflexivity]|]. change (head p (c :: r)) with (p c). rewrite <- not_true_iff_false, H. split; [intros N d E; now injection E as <- | intros N; now apply N].
Qed.
Lemma eqb_spec x c : (x =? c)%Z = true <-> x = c.
Proof. apply Z.eqb_eq. Qed.

Lemma block1_spec cs : (exists s, fst (block1 cs) = s ++ [42; 47]%Z /\ forall a b, s ++ [42; 47]%Z = a ++ 42%Z :: 47%Z :: b -> b = []) \/
  (snd (block1 cs) = [] /\ forall a b, fst (block1 cs) <> a ++ 42%Z :: 47%Z :: b).
Proof.
  induction cs as [| c r IH]; cbn [block1].
  - right. split; [reflexivity|]. intros [| x a] b E; discriminate E.
  - destruct ((c =? 42)%Z && head (Z.eqb 47) r) eqn:E; cbn [fst snd].
    + left. exists []. split; [reflexivity|]. intros [| x [| y a]] b Q; cbn [app] in Q; [now injection Q as <- | injection Q as _ Q; discriminate | injection Q as _ _ Q; destruct a; discriminate].
    + assert (Nx : forall x b, fst (block1 r) = x :: b -> c = 42%Z -> x <> 47%Z).
      { intros x b Eb -> ->. change (42 =? 42)%Z with true in E. cbn [andb] in E. destruct r as [| d r]; [discriminate|]. unfold head in E. cbn [hd_error sql_opt] in E. apply Z.eqb_neq in E. cbn [block1] in Eb. destruct ((d =? 42)%Z && head (Z.eqb 47) r); cbn [fst] in Eb; injection Eb as Eb _; congruence. }
      destruct IH as [(s & Es & N) | [Es N]].
      * left. exists (c :: s). rewrite Es. split; [reflexivity|]. intros [| x a] b Q; cbn [app] in Q; injection Q as Qc Q.
        -- exfalso. rewrite <- Es in Q. exact (Nx _ _ Q Qc eq_refl).
        -- now apply (N a).
      * right. split; [exact Es|]. intros [| x a] b Q; cbn [app] in Q; injection Q as Qc Q; [exact (Nx _ _ Q Qc eq_refl) | exact (N a b Q)].
Qed.
Lemma block_closed s r : (forall a b, s ++ [42; 47]%Z = a ++ 42%Z :: 47%Z :: b -> b = []) -> block1 (s ++ [42; 47]%Z ++ r) = (s ++ [42; 47]%Z, r).
Proof.
  induction s as [| c s IH]; intros N; [reflexivity|]. cbn [app block1]. destruct ((c =? 42)%Z && head (Z.eqb 47) (s ++ 42%Z :: 47%Z :: r)) eqn:E.
  - exfalso. apply andb_true_iff in E. destruct E as [E1 E2]. apply Z.eqb_eq in E1. subst c. destruct s as [| d s]; [discriminate E2|]. unfold head in E2. cbn [app hd_error sql_opt] in E2. apply Z.eqb_eq in E2. subst d. specialize (N [] (s ++ [42; 47]%Z) eq_refl). destruct s; discriminate.
  - assert (N' : forall a b, s ++ [42; 47]%Z = a ++ 42%Z :: 47%Z :: b -> b = []) by (intros a b Q; apply (N (c :: a)); cbn [app]; now rewrite Q). specialize (IH N'). cbn [app] in IH. now rewrite IH.
Qed.
Lemma block_open s : (forall a b, s <> a ++ 42%Z :: 47%Z :: b) -> block1 s = (s, []).
Proof.
  induction s as [| c s IH]; intros N; [reflexivity|]. cbn [block1]. destruct ((c =? 42)%Z && head (Z.eqb 47) s) eqn:E.
  - exfalso. apply andb_true_iff in E. destruct E as [E1 E2]. apply Z.eqb_eq in E1. subst c. apply head_cons in E2. apply (N [] (tl s)). cbn [app]. now rewrite <- E2.
  - rewrite IH; [reflexivity|]. intros a b Q. apply (N (c :: a) b). cbn [app]. now rewrite Q.
Qed.

Lemma quoted1_spec q cs : q <> 92%Z -> ~ eol q ->
  let good b t := (exists s, b = s ++ [q] /\ inside q s) \/ (exists s e, b = s ++ [e] /\ inside q s /\ eol e) \/ (inside q b /\ t = []) \/ (exists s, b = s ++ [92%Z] /\ inside q s /\ t = []) in
  good (fst (quoted1 q false cs)) (snd (quoted1 q false cs)) /\
  (cs = [] \/ exists c r, cs = c :: r /\ fst (quoted1 q true cs) = c :: fst (quoted1 q false r) /\ snd (quoted1 q true cs) = snd (quoted1 q false r) /\ good (fst (quoted1 q false r)) (snd (quoted1 q false r))).
Proof.
  intros Nq Ne good. assert (Put : forall p b t, (forall s, inside q s -> inside q (p ++ s)) -> good b t -> good (p ++ b) t).
  { intros p b t P [(s & -> & I) | [(s & e & -> & I & E) | [[I E] | (s & -> & I & E)]]].
    - left. exists (p ++ s). split; [now rewrite app_assoc | now apply P].
    - right. left. exists (p ++ s), e. split; [now rewrite app_assoc|]. split; [now apply P | exact E].
    - right. right. left. split; [now apply P | exact E].
    - right. right. right. exists (p ++ s). split; [now rewrite app_assoc|]. split; [now apply P | exact E]. }
  induction cs as [| c r [IH IHt]].
  - split; [|now left]. right. right. left. split; [constructor | reflexivity].
  - split.
    + cbn [quoted1]. destruct (Z.eqb_spec c q) as [-> | Nc]; [left; exists []; split; [reflexivity | constructor]|]. destruct (Z.eqb_spec c 92) as [-> | N92].
      * destruct IHt as [-> | (d & r' & -> & E1 & E2 & G)].
        -- right. right. right. exists []. now repeat split; try constructor.
        -- destruct (quoted1 q true (d :: r')) as [b t]. cbn [fst snd] in *. subst b t. apply (Put [92%Z; d]); [intros s I; now constructor | exact G].
      * destruct (sql_eol c) eqn:El.
        -- right. left. exists [], c. split; [reflexivity|]. split; [constructor | now apply eolb].
        -- assert (Nl : ~ eol c) by (rewrite <- eolb, El; discriminate). destruct (quoted1 q false r) as [b t]. cbn [fst snd] in *. apply (Put [c]); [intros s I; now constructor | exact IH].
    + right. exists c, r. split; [reflexivity|]. cbn [quoted1]. destruct (quoted1 q false r) as [b t]. now repeat split.
Qed.
Lemma inside_read q s r : q <> 92%Z -> inside q s -> quoted1 q false (s ++ r) = (s ++ fst (quoted1 q false r), snd (quoted1 q false r)).
Proof.
  intros Nq. induction 1 as [| c s Nc N92 Ne _ IH | c s _ IH]; cbn [app].
  - now destruct (quoted1 q false r).
  - cbn [quoted1]. destruct (Z.eqb_spec c q); [contradiction|]. destruct (Z.eqb_spec c 92); [contradiction|]. destruct (sql_eol c) eqn:El; [apply eolb in El; contradiction|]. now rewrite IH.
  - cbn [quoted1]. destruct (Z.eqb_spec 92 q); [congruence|]. change (92 =? 92)%Z with true. cbv iota. now rewrite IH.
Qed.

(** *** Numbers *)
Lemma digits_spec cs : Forall digit_ (fst (digits1 cs)) /\ ends digit_ (snd (digits1 cs)).
Proof. exact (run_spec digit_ sql_digit cs digit_b). Qed.
Lemma digits_read s r : Forall digit_ s -> ends digit_ r -> digits1 (s ++ r) = (s, r).
Proof. intros F E. unfold digits1. now destruct (run_plain digit_ sql_digit s r digit_b (conj F E)) as [-> ->]. Qed.
Lemma fraction_starts cs : starts_fraction cs = true <-> has_fraction cs.
Proof.
  split.
  - destruct cs as [| p [| d t]]; try discriminate. cbn [starts_fraction]. rewrite andb_true_iff, Z.eqb_eq, digitb. intros [-> D]. now exists d, t.
  - intros (d & t & -> & D). cbn [starts_fraction]. apply digitb in D. now rewrite D.
Qed.
Lemma sod c : sign_or_digit c = true <-> sign c \/ digit c.
Proof. unfold sign_or_digit. now rewrite orb_true_iff, signb, digitb. Qed.
Lemma exponent_starts cs : starts_exponent cs = true <-> has_exponent cs.
Proof.
  split.
  - destruct cs as [| x [| d t]]; try discriminate. cbn [starts_exponent]. rewrite andb_true_iff, expb, sod. intros [X D]. now exists x, d, t.
  - intros (x & d & t & -> & X & D). cbn [starts_exponent]. apply expb in X. apply sod in D. now rewrite X, D.
Qed.
Lemma not_true b : b = false <-> ~ b = true.
Proof. destruct b; split; congruence. Qed.
Lemma digit_digit_ c : digit c -> digit_ c.
Proof. now left. Qed.
Lemma fraction1_spec cs : ends digit_ cs -> fraction (fst (fraction1 cs)) /\ ends digit_ (snd (fraction1 cs)) /\ (fst (fraction1 cs) = [] <-> ~ has_fraction cs) /\ (fst (fraction1 cs) = [] -> snd (fraction1 cs) = cs).
Proof.
  intros E. unfold fraction1. destruct (starts_fraction cs) eqn:S; cbn [fst snd].
  - apply fraction_starts in S. pose proof S as (d & t & -> & D). destruct (digits_spec (d :: t)) as [F N]. assert (Q : exists x, fst (digits1 (d :: t)) = d :: x) by (unfold digits1; cbn [char_run fst]; rewrite (proj2 (digit_b d) (digit_digit_ d D)); now eexists). cbn [tl] in *. destruct Q as (x & Q). rewrite Q in *.
    split; [right; split; [now exists d, x | exact F]|]. split; [exact N|]. split; [|discriminate]. split; [discriminate | contradiction].
  - split; [now left|]. split; [exact E|]. split; [|reflexivity]. rewrite not_true, fraction_starts in S. now split.
Qed.
Lemma exponent1_spec cs : ends digit_ cs -> exponent (fst (exponent1 cs)) /\ ends digit_ (snd (exponent1 cs)) /\ (fst (exponent1 cs) = [] <-> ~ has_exponent cs) /\ (fst (exponent1 cs) = [] -> snd (exponent1 cs) = cs).
Proof.
  intros E. destruct cs as [| x r]; [split; [now left|]; split; [exact E|]; split; [split; [intros _ (y & d & t & Q & _); discriminate | reflexivity] | reflexivity]|]. unfold exponent1. destruct (starts_exponent (x :: r)) eqn:S; cbn [fst snd].
  - apply exponent_starts in S. pose proof S as (y & d & t & Q & X & D). injection Q as <- ->. cbn [opt after_opt]. destruct (sql_sign d) eqn:G.
    + destruct (digits_spec t) as [F N]. cbn [app]. split; [right; split; [exists x, d, (fst (digits1 t)); now repeat split | exact F]|]. split; [exact N|]. split; [split; [discriminate | contradiction] | discriminate].
    + destruct (digits_spec (d :: t)) as [F N]. assert (Dd : digit d) by (destruct D as [D | D]; [apply signb in D; congruence | exact D]). assert (Q : exists z, fst (digits1 (d :: t)) = d :: z) by (unfold digits1; cbn [char_run fst]; rewrite (proj2 (digit_b d) (digit_digit_ d Dd)); now eexists). destruct Q as (z & Q). rewrite Q in *. cbn [app].
      split; [right; split; [exists x, d, z; now repeat split | now inversion F]|]. split; [exact N|]. split; [split; [discriminate | contradiction] | discriminate].
  - split; [now left|]. split; [exact E|]. split; [|reflexivity]. rewrite not_true, exponent_starts in S. now split.
Qed.
Lemma number1_spec c r : digit c -> let '(b, s, t) := number1 (c :: r) in number b s t.
Proof.
  intros D. unfold number1. destruct (digits_spec r) as [Fi Ei]. destruct (digits1 r) as [i r1]. cbn [fst snd] in *. destruct (fraction1_spec r1 Ei) as (Ff & Ef & Nf & Rf). pose proof (fraction_starts r1) as Sf. destruct (fraction1 r1) as [f r2]. cbn [fst snd] in *.
  destruct (exponent1_spec r2 Ef) as (Fe & Ee & Ne & Re). pose proof (exponent_starts r2) as Se. destruct (exponent1 r2) as [e r3]. cbn [fst snd] in *.
  exists c, i, f, e. split; [reflexivity|]. split; [exact D|]. split; [exact Fi|]. split; [exact Ff|]. split; [exact Fe|]. split; [exact Ee|]. split; [|split].
  - intros Zf Ze. rewrite (Re Ze), (Rf Zf). now apply Nf.
  - intros Ze. rewrite (Re Ze). now apply Ne.
  - rewrite orb_true_iff. assert (D1 : has_fraction r1 \/ ~ has_fraction r1) by (rewrite <- Sf; destruct (starts_fraction r1); [now left | right; discriminate]). assert (D2 : has_exponent r2 \/ ~ has_exponent r2) by (rewrite <- Se; destruct (starts_exponent r2); [now left | right; discriminate]). tauto.
Qed.
Lemma exponent_ends e r : exponent e -> e <> [] -> exists x, hd_error (e ++ r) = Some x /\ exp_mark x /\ exists d t, e = x :: d :: t /\ (sign d \/ digit d) /\ Forall digit_ t.
Proof. intros [-> | [(x & d & t & -> & X & D) F]] N; [contradiction|]. exists x. split; [reflexivity|]. split; [exact X|]. now exists d, t. Qed.
Lemma exp_no_digit c : exp_mark c -> ~ digit_ c.
Proof. unfold exp_mark, digit_, digit. lia. Qed.
Lemma exponent_read e r : exponent e -> ends digit_ r -> (e = [] -> ~ has_exponent r) -> exponent1 (e ++ r) = (e, r) /\ ends digit_ (e ++ r) /\ (starts_exponent (e ++ r) = true <-> e <> []) /\ (~ has_fraction (e ++ r) \/ e = []).
Proof.
  intros X E N. destruct X as [-> | [(x & d & t & -> & X & D) F]]; cbn [app].
  - specialize (N eq_refl). split; [|split; [exact E|]; split; [|now right]].
    + unfold exponent1. destruct r as [| c r]; [reflexivity|]. destruct (starts_exponent (c :: r)) eqn:S; [apply exponent_starts in S; contradiction | reflexivity].
    + rewrite exponent_starts. split; [contradiction | congruence].
  - cbn [tl] in F. assert (S : starts_exponent (x :: d :: t ++ r) = true) by (apply exponent_starts; now exists x, d, (t ++ r)). split; [|split; [|split]].
    + unfold exponent1. rewrite S. cbn [opt after_opt]. destruct (sql_sign d) eqn:G.
      * now rewrite (digits_read t r F E).
      * assert (Dd : digit d) by (destruct D as [D | D]; [apply signb in D; congruence | exact D]). change (d :: t ++ r) with ((d :: t) ++ r). rewrite (digits_read (d :: t) r); [reflexivity | constructor; [now left | exact F] | exact E].
    + intros c Q. injection Q as <-. now apply exp_no_digit.
    + rewrite S. split; [discriminate | reflexivity].
    + left. intros (d' & t' & Q & _). injection Q as -> _. unfold exp_mark in X. lia.
Qed.
Lemma number_read b s r : number b s r -> number1 (s ++ r) = (b, s, r) /\ exists c s', s = c :: s' /\ digit c.
Proof.
  intros (c & i & f & e & -> & D & Fi & Ff & Fe & E & Nf & Ne & B). split; [|now exists c, (i ++ f ++ e)]. cbn [app number1]. rewrite <- !app_assoc. destruct (exponent_read e r Fe E Ne) as (Xe & Ee & Se & Hf).
  assert (Hfr : fraction1 (f ++ e ++ r) = (f, e ++ r) /\ ends digit_ (f ++ e ++ r) /\ (starts_fraction (f ++ e ++ r) = true <-> f <> [])).
  { destruct Ff as [-> | [(d & t & -> & Dd) F]]; cbn [app].
    - assert (H : ~ has_fraction (e ++ r)) by (destruct Hf as [H | ->]; [exact H | now apply Nf]). rewrite <- fraction_starts in H. apply not_true in H. unfold fraction1. rewrite H. split; [reflexivity|]. split; [exact Ee|]. split; congruence.
    - assert (S : starts_fraction (46%Z :: d :: t ++ e ++ r) = true) by (apply fraction_starts; now exists d, (t ++ e ++ r)). cbn [tl] in F. unfold fraction1. rewrite S. cbn [tl]. change (d :: t ++ e ++ r) with ((d :: t) ++ e ++ r). rewrite (digits_read (d :: t) (e ++ r) F Ee). split; [reflexivity|]. split; [|split; [discriminate | reflexivity]]. intros x Q. injection Q as <-. unfold digit_, digit. lia. }
  destruct Hfr as (Hfr & Ef & Sf). rewrite (digits_read i (f ++ e ++ r) Fi Ef), Hfr, Xe. f_equal. f_equal. apply Bool.eq_iff_eq_true. rewrite orb_true_iff, Sf, Se. now symmetry.
Qed.

(** *** Words and marks *)
Section Words.
  Variable alnum : Z -> bool.
  Variable upper : str -> str.
  Lemma keywords_one s k k' : In (s, k) keywords -> In (s, k') keywords -> k = k'.
  Proof.
    intros I I'. assert (H : forallb (fun p => forallb (fun p' => implb (str_eqb (fst p) (fst p')) (snd p =? snd p')) keywords) keywords = true) by (vm_compute; reflexivity).
    rewrite forallb_forall in H. specialize (H _ I). cbv beta in H. rewrite forallb_forall in H. specialize (H _ I'). cbn [fst snd] in H. rewrite (proj2 (VfsProofs.str_eqb_spec s s) eq_refl) in H. now apply Nat.eqb_eq.
  Qed.
  Lemma word_kind_spec s : word_kind upper s (sql_word_kind upper (encode s)).
  Proof.
    unfold sql_word_kind. destruct (find _ sql_keywords) as [[x k]|] eqn:F.
    - apply find_some in F. destruct F as [I E]. cbn [fst snd] in *. apply VfsProofs.str_eqb_spec in E. subst x. now left.
    - right. split; [|reflexivity]. intros k I. pose proof (find_none _ _ F _ I) as E. cbn [fst] in E. rewrite (proj2 (VfsProofs.str_eqb_spec _ _) eq_refl) in E. discriminate.
  Qed.
  Lemma word_kind_read s k : word_kind upper s k -> sql_word_kind upper (encode s) = k.
  Proof.
    intros H. pose proof (word_kind_spec s) as H'. destruct H as [I | [N ->]], H' as [I' | [N' E]].
    - exact (keywords_one _ _ _ I' I).
    - now destruct (N' k).
    - now destruct (N _ I').
    - exact E.
  Qed.
End Words.

Lemma marks_falling : LuaLexProofs.falling marks = true.
Proof. vm_compute. reflexivity. Qed.
Lemma marks_one s k k' : In (s, k) marks -> In (s, k') marks -> k = k'.
Proof.
  intros I I'. assert (H : forallb (fun p => forallb (fun p' => implb (str_eqb (fst p) (fst p')) (snd p =? snd p')) marks) marks = true) by (vm_compute; reflexivity).
  rewrite forallb_forall in H. specialize (H _ I). cbv beta in H. rewrite forallb_forall in H. specialize (H _ I'). cbn [fst snd] in H. rewrite (proj2 (VfsProofs.str_eqb_spec s s) eq_refl) in H. now apply Nat.eqb_eq.
Qed.
Lemma marks_start s k c : In (s, k) marks -> hd_error s = Some c -> c <> 33%Z -> exists k', In ([c], k') marks.
Proof.
  intros I E N. assert (H : forallb (fun p => str_eqb (firstn 1 (fst p)) (lit "!") || existsb (fun p' => str_eqb (firstn 1 (fst p)) (fst p')) marks) marks = true) by (vm_compute; reflexivity).
  rewrite forallb_forall in H. specialize (H _ I). destruct s as [| d s]; [discriminate|]. injection E as ->. apply orb_true_iff in H. destruct H as [H | H].
  - cbn [fst firstn] in H. apply VfsProofs.str_eqb_spec in H. injection H as ->. contradiction.
  - apply existsb_exists in H. destruct H as ([x k'] & I' & H). cbn [fst firstn] in H. apply VfsProofs.str_eqb_spec in H. subst x. now exists k'.
Qed.
(** what a mark may begin with *)
Lemma marks_head s k : In (s, k) marks -> exists c x, s = c :: x /\ sql_blank c = false /\ (c =? 10)%Z = false /\ (c =? 13)%Z = false /\ sql_quote c = false /\ ascii_digit_c c = false /\ sql_start c = false /\ (c = 33%Z -> x = [61%Z]).
Proof.
  intros I. assert (H : forallb (fun p => match fst p with [] => false | c :: x => negb (sql_blank c || (c =? 10)%Z || (c =? 13)%Z || sql_quote c || ascii_digit_c c || sql_start c) && (negb (c =? 33)%Z || str_eqb x [61%Z]) end) marks = true) by (vm_compute; reflexivity).
  rewrite forallb_forall in H. specialize (H _ I). cbn [fst] in H. destruct s as [| c s]; [discriminate|]. exists c, s. split; [reflexivity|]. apply andb_true_iff in H. destruct H as [H H2]. apply negb_true_iff in H. rewrite !orb_false_iff in H. repeat (split; [tauto|]). intros ->. change (33 =? 33)%Z with true in H2. cbn [negb orb] in H2. now apply VfsProofs.str_eqb_spec.
Qed.
Lemma mark1_spec cs s k : mark1 cs = Some (s, k) -> In (s, k) marks /\ cs = s ++ skipn (length s) cs /\ forall s' k' x, In (s', k') marks -> cs = s' ++ x -> length s' <= length s.
Proof.
  intros F. destruct (find_some _ _ F) as [I P]. cbn [fst] in P. split; [exact I|]. split; [now apply XmlLexProofs.prefixb_skip|]. intros s' k' x I' E. apply (LuaLexProofs.find_first _ _ (s, k) (s', k') marks_falling F I'). cbn [fst]. apply XmlLexProofs.prefixb_spec. now exists x.
Qed.
Lemma mark_read s k r : In (s, k) marks -> (forall s' k' x, In (s', k') marks -> s ++ r = s' ++ x -> length s' <= length s) -> mark1 (s ++ r) = Some (s, k).
Proof.
  intros I M. destruct (mark1 (s ++ r)) as [[s' k']|] eqn:F.
  - destruct (mark1_spec _ _ _ F) as (I' & E & M'). pose proof (M s' k' _ I' E) as L1. pose proof (M' s k r I eq_refl) as L2. assert (Es : s = s').
    { assert (L : length s = length s') by lia. clear - E L. revert s' E L. induction s as [| x s IH]; intros [| y s'] E L; cbn in L; try discriminate; [reflexivity|]. cbn [app length skipn] in E. injection E as <- E. f_equal. apply (IH s'); [exact E | lia]. }
    subst s'. now rewrite (marks_one s k k' I I').
  - pose proof (find_none _ _ F _ I) as P. cbn [fst] in P. rewrite (proj2 (XmlLexProofs.prefixb_spec s (s ++ r)) (ex_intro _ r eq_refl)) in P. discriminate.
Qed.

Section Pieces.
  Variable alnum : Z -> bool.
  Variable upper : str -> str.
  Lemma two_heads a b c r : (c =? a)%Z && head (Z.eqb b) r = true <-> exists x, c :: r = a :: b :: x.
  Proof.
    rewrite andb_true_iff, Z.eqb_eq. split.
    - intros [-> H]. apply head_cons in H. exists (tl r). now rewrite <- H.
    - intros (x & E). injection E as -> ->. split; [reflexivity | apply Z.eqb_refl].
  Qed.
  Lemma sql1_piece c r : let '(k, s, t) := sql1 alnum upper (c :: r) in c :: r = s ++ t /\ s <> [] /\ sql_piece alnum upper k s t.
  Proof.
    pose proof (sql1_app alnum upper c r) as A. destruct (sql1 alnum upper (c :: r)) as [[k s] t] eqn:L. destruct A as [A N]. split; [now symmetry|]. split; [exact N|]. unfold sql1 in L.
    destruct (sql_blank c) eqn:B1. { injection L as <- <- <-. apply PBlank; [now apply blankb | exact (run_spec white char_is_whitespace r whiteb)]. }
    destruct (Z.eqb_spec c 10) as [-> | B2]; [injection L as <- <- <-; constructor|]. destruct (Z.eqb_spec c 13) as [-> | B3].
    { destruct (head (Z.eqb 10) r) eqn:H; injection L as <- <- <-; [constructor|]. apply PReturn. now apply (head_ends (eq 10%Z) (Z.eqb 10) _ (eqb_spec 10)). }
    destruct ((c =? 45)%Z && head (Z.eqb 45) r) eqn:C1. { injection L as <- <- <-. apply PComment. exact (run_spec _ in_line _ lineb). }
    destruct ((c =? 47)%Z && head (Z.eqb 42) r) eqn:C2.
    { injection L as <- <- <-. destruct (block1_spec (tl r)) as [(s0 & -> & H) | [-> H]]; [now apply PBlock | now apply POpenBlock]. }
    destruct (sql_quote c) eqn:B5.
    { apply quoteb in B5. injection L as <- <- <-. destruct (quoted1_spec c r) as [G _]; [unfold quote in B5; lia | unfold quote, eol in *; lia|]. destruct G as [(s0 & -> & I) | [(s0 & e & -> & I & E) | [[I ->] | (s0 & -> & I & ->)]]]; [now apply PString | now apply PBroken | now apply POpen | now apply PDangling]. }
    destruct (ascii_digit_c c) eqn:B7. { pose proof (number1_spec c r (proj1 (digitb c) B7)) as Nm. destruct (number1 (c :: r)) as [[b s0] t0]. injection L as <- <- <-. destruct b; [now apply PFloat | now apply PNumber]. }
    destruct (sql_start c) eqn:B8. { apply startb in B8. injection L as <- <- <-. apply PWord; [exact B8 | apply run_spec; apply wordb | apply word_kind_spec]. }
    assert (X1 : forall x, s ++ t <> 45%Z :: 45%Z :: x) by (rewrite A; intros x Q; apply not_true in C1; apply C1; apply two_heads; now exists x).
    assert (X2 : forall x, s ++ t <> 47%Z :: 42%Z :: x) by (rewrite A; intros x Q; apply not_true in C2; apply C2; apply two_heads; now exists x).
    destruct (mark1 (c :: r)) as [[s0 k0]|] eqn:M.
    - injection L as <- <- <-. destruct (mark1_spec _ _ _ M) as (I & E & X). apply PMark; [exact I | | exact X1 | exact X2]. rewrite <- E. exact X.
    - destruct (Z.eqb_spec c 33) as [-> | N33]; injection L as <- <- <-.
      + apply PSkipped. intros d Q <-. destruct r as [| e r]; [discriminate|]. injection Q as ->. assert (I : In (lit "!=", QNotEqual) marks) by (vm_compute; tauto). pose proof (find_none _ _ M _ I) as P. discriminate P.
      + apply POther; [now rewrite <- blankb, B1 | unfold eol; tauto | now rewrite <- quoteb, B5 | now rewrite <- digitb, B7 | now rewrite <- startb, B8 | exact N33 |].
        intros s0 k0 I E. destruct (marks_start _ _ _ I E N33) as (k' & I'). pose proof (find_none _ _ M _ I') as P. cbn in P. rewrite Z.eqb_refl in P. discriminate.
  Qed.

  Lemma quote_rest q : quote q -> sql_blank q = false /\ (q =? 10)%Z = false /\ (q =? 13)%Z = false /\ (q =? 45)%Z = false /\ (q =? 47)%Z = false /\ sql_quote q = true /\ q <> 92%Z.
  Proof. intros [-> | ->]; repeat split; lia. Qed.
  Lemma sql1_quoted q r : quote q -> sql1 alnum upper (q :: r) = (Some QStringLiteral, q :: fst (quoted1 q false r), snd (quoted1 q false r)).
  Proof. intros Q. destruct (quote_rest q Q) as (E1 & E2 & E3 & E4 & E5 & E6 & _). unfold sql1. now rewrite E1, E2, E3, E4, E5, E6. Qed.
  Lemma sql1_number b s r : number b s r -> sql1 alnum upper (s ++ r) = (Some (if b then QFloatLiteral else QNumberLiteral), s, r).
  Proof.
    intros Nm. destruct (number_read b s r Nm) as [E (c & s' & -> & D)]. cbn [app] in *. unfold sql1. rewrite E, (proj2 (digitb c) D). unfold digit in D. unfold sql_blank, sql_quote. replace (c =? 32)%Z with false by lia. replace (c =? 9)%Z with false by lia. replace (c =? 10)%Z with false by lia. replace (c =? 13)%Z with false by lia. replace (c =? 45)%Z with false by lia. replace (c =? 47)%Z with false by lia. replace (c =? 34)%Z with false by lia. replace (c =? 39)%Z with false by lia. reflexivity.
  Qed.
  Lemma piece_sql1 k s r : sql_piece alnum upper k s r -> sql1 alnum upper (s ++ r) = (k, s, r).
  Proof.
    intros H. destruct H as [c s r B R | r | r E | r | s r R | s r X | s X | q s r Q I | q s e r Q I E | q s Q I | q s Q I | s r Nm | s r Nm | c s r k Sc R K | s k r I X C1 C2 | r E | c r B1 B2 B3 B4 B5 B6 B7].
    - cbn [app]. unfold sql1. rewrite (proj2 (blankb c) B). now destruct (run_plain white char_is_whitespace s r whiteb R) as [-> ->].
    - reflexivity.
    - cbn [app]. unfold sql1. apply (head_ends (eq 10%Z) (Z.eqb 10) _ (eqb_spec 10)) in E. now rewrite E.
    - reflexivity.
    - cbn [app]. destruct (run_plain _ in_line s r lineb R) as [E1 E2]. unfold sql1. cbn [sql_blank Z.eqb Pos.eqb orb head hd_error sql_opt andb tl]. now rewrite E1, E2.
    - cbn [app]. rewrite <- app_assoc. unfold sql1. cbn [sql_blank Z.eqb Pos.eqb orb head hd_error sql_opt andb tl]. now rewrite (block_closed s r X).
    - rewrite app_nil_r. unfold sql1. cbn [sql_blank Z.eqb Pos.eqb orb head hd_error sql_opt andb tl]. now rewrite (block_open s X).
    - destruct (quote_rest q Q) as (_ & _ & _ & _ & _ & _ & Nq). cbn [app]. rewrite (sql1_quoted q _ Q), <- app_assoc. rewrite (inside_read q s _ Nq I). cbn [app quoted1 fst snd]. now rewrite Z.eqb_refl.
    - destruct (quote_rest q Q) as (_ & _ & _ & _ & _ & _ & Nq). cbn [app]. rewrite (sql1_quoted q _ Q), <- app_assoc. rewrite (inside_read q s _ Nq I). cbn [app quoted1 fst snd]. rewrite (proj2 (eolb e) E). unfold eol, quote in *. destruct (Z.eqb_spec e q); [lia|]. destruct (Z.eqb_spec e 92); [lia|]. reflexivity.
    - destruct (quote_rest q Q) as (_ & _ & _ & _ & _ & _ & Nq). cbn [app]. rewrite (sql1_quoted q _ Q). rewrite (inside_read q s [] Nq I). cbn [quoted1 fst snd]. now rewrite app_nil_r.
    - destruct (quote_rest q Q) as (_ & _ & _ & _ & _ & _ & Nq). cbn [app]. rewrite (sql1_quoted q _ Q), app_nil_r. rewrite (inside_read q s [92%Z] Nq I). cbn [quoted1]. destruct (Z.eqb_spec 92 q); [congruence | reflexivity].
    - exact (sql1_number false s r Nm).
    - exact (sql1_number true s r Nm).
    - destruct (run_plain (word alnum) (sql_word alnum) s r (wordb alnum) R) as [E1 E2]. cbn [app]. unfold sql1. rewrite E1, E2, (proj2 (startb c) Sc), (word_kind_read upper _ _ K). unfold start in Sc. unfold sql_blank, sql_quote, ascii_digit_c. replace (c =? 32)%Z with false by lia. replace (c =? 9)%Z with false by lia. replace (c =? 10)%Z with false by lia. replace (c =? 13)%Z with false by lia. replace (c =? 45)%Z with false by lia. replace (c =? 47)%Z with false by lia. replace (c =? 34)%Z with false by lia. replace (c =? 39)%Z with false by lia. replace ((48 <=? c)%Z && (c <=? 57)%Z) with false by lia. reflexivity.
    - pose proof (mark_read s k r I X) as M. destruct (marks_head s k I) as (c & x & -> & E1 & E2 & E3 & E5 & E7 & E8 & _). assert (Sk : skipn (length (c :: x)) ((c :: x) ++ r) = r) by (rewrite skipn_app, skipn_all, Nat.sub_diag; reflexivity).
      assert (D1 : (c =? 45)%Z && head (Z.eqb 45) (x ++ r) = false) by (apply not_true; rewrite two_heads; intros (y & Q); exact (C1 y Q)). assert (D2 : (c =? 47)%Z && head (Z.eqb 42) (x ++ r) = false) by (apply not_true; rewrite two_heads; intros (y & Q); exact (C2 y Q)).
      cbn [app] in *. unfold sql1. now rewrite E1, E2, E3, D1, D2, E5, E7, E8, M, Sk.
    - cbn [app]. unfold sql1. cbn [sql_blank sql_quote ascii_digit_c sql_start ascii_alpha_c Z.eqb Pos.eqb orb andb Z.leb Z.compare Pos.compare Pos.compare_cont]. replace (mark1 (33%Z :: r)) with (@None (list Z * nat)); [reflexivity|]. symmetry. destruct (mark1 (33%Z :: r)) as [[s k]|] eqn:M; [|reflexivity]. destruct (mark1_spec _ _ _ M) as (I & Q & _).
      destruct (marks_head s k I) as (c & x & -> & _ & _ & _ & _ & _ & _ & H). cbn [app] in Q. injection Q as <- Q. rewrite (H eq_refl) in Q. cbn in Q. destruct r as [| e r]; [discriminate|]. injection Q as Q. now destruct (E e eq_refl).
    - cbn [app]. unfold sql1. rewrite <- blankb, not_true_iff_false in B1. rewrite <- quoteb, not_true_iff_false in B3. rewrite <- digitb, not_true_iff_false in B4. rewrite <- startb, not_true_iff_false in B5. rewrite B1, B3, B4, B5. unfold eol in B2. destruct (Z.eqb_spec c 10); [tauto|]. destruct (Z.eqb_spec c 13); [tauto|].
      assert (B8 : forall k, ~ In ([c], k) marks) by (intros k I; exact (B7 [c] k I eq_refl)). destruct (Z.eqb_spec c 45) as [-> |]; [destruct (B8 QMinus); vm_compute; tauto|]. destruct (Z.eqb_spec c 47) as [-> |]; [destruct (B8 QSlash); vm_compute; tauto|]. cbn [andb].
      destruct (mark1 (c :: r)) as [[s k]|] eqn:M; [|destruct (Z.eqb_spec c 33); [contradiction | reflexivity]].
      destruct (mark1_spec _ _ _ M) as (I & E & _). destruct (B7 s k I). destruct (marks_head s k I) as (d & x & -> & _). cbn [app] in E. now injection E as <-.
  Qed.

  (** ** The tokens of a text *)
  Lemma sql_pieces_unique k s r k' s' r' : s ++ r = s' ++ r' -> s <> [] -> s' <> [] -> sql_piece alnum upper k s r -> sql_piece alnum upper k' s' r' -> k = k' /\ s = s'.
  Proof.
    intros E _ _ P P'. pose proof (piece_sql1 _ _ _ P) as X. pose proof (piece_sql1 _ _ _ P') as X'. rewrite E in X. rewrite X in X'. injection X' as -> -> _. now split.
  Qed.
  Lemma sql_lex_cut cs : Forall is_scalar cs -> exists ps, cut (sql_piece alnum upper) cs ps /\ sql_lex alnum upper (encode cs) = Some (spans 0 ps ++ [Token QEof (length (encode cs)) (length (encode cs))]).
  Proof.
    intros F. unfold sql_lex. set (text := encode cs). assert (Hs : serves (flat_source text) text) by (apply flat_serves; now exists cs).
    apply (lex_all_view (flat_source text) text (sql_round alnum upper text) (sql_piece alnum upper) Hs).
    - intros l c r Vl. pose proof (round_view alnum upper text Hs l c r Vl) as W. pose proof (sql1_piece c r) as P. destruct (sql1 alnum upper (c :: r)) as [[k s] t]. destruct W as (l' & E & St), P as (A & N & P). exists l', k, s, t. split; [assumption|]. split; [assumption|]. split; [assumption|]. now split.
    - exact (all_reads cs F).
  Qed.
End Pieces.
