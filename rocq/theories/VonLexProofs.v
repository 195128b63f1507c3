(** The VON lexer. *)
From Verif Require PyProofs XmlLexProofs XmlSpec.
From Verif Require Import Base Utf8 Utf8Facts ScanSpec CursorModel CursorSpec CursorProofs RopeModel RopeProofs VfsModel LexModel LexSpec LexProofs LexLoopProofs.
From Verif Require Import JsonLangSpec JsonLexProofs LangModel LangSpec LangLexProofs IniModel VonModel VonSpec.
Notation until := XmlLexProofs.until.

(** ** Classes *)
Lemma blankb c : von_blank c = true <-> blank c.
Proof. unfold von_blank, blank. now rewrite orb_true_iff, !Z.eqb_eq. Qed.
Lemma quoteb c : von_quote c = true <-> quote c.
Proof. unfold von_quote, quote. now rewrite orb_true_iff, !Z.eqb_eq. Qed.
Lemma digitb c : ascii_digit_c c = true <-> digit c.
Proof. unfold ascii_digit_c, digit. rewrite andb_true_iff, !Z.leb_le. tauto. Qed.
Lemma letterb c : ascii_alpha_c c = true <-> letter c.
Proof. unfold ascii_alpha_c, letter. rewrite orb_true_iff, !andb_true_iff, !Z.leb_le. tauto. Qed.
Lemma startb c : von_start c = true <-> start c.
Proof. unfold von_start, start. now rewrite orb_true_iff, letterb, Z.eqb_eq. Qed.
Lemma wordb c : von_word c = true <-> word c.
Proof. unfold von_word, word, start. rewrite !orb_true_iff, letterb, digitb, Z.eqb_eq. tauto. Qed.
Lemma figureb c : von_figure c = true <-> figure c.
Proof. unfold von_figure, figure. now rewrite orb_true_iff, digitb, Z.eqb_eq. Qed.
Definition in_line (c : Z) : bool := negb ((c =? 10) || (c =? 13))%Z.
Lemma lineb c : in_line c = true <-> ~ eol c.
Proof. unfold in_line, eol. now rewrite negb_true_iff, <- not_true_iff_false, orb_true_iff, !Z.eqb_eq. Qed.
Definition head (p : Z -> bool) (cs : list Z) : bool := von_opt p (hd_error cs).

(** ** What a round reads *)
Definition whole1 (cs : list Z) : list Z * list Z := if head ascii_digit_c cs then (char_run von_figure cs, drop_run von_figure cs) else ([], cs).
Definition fraction1 (cs : list Z) : list Z * list Z :=
  match cs with
  | c :: r => if (c =? 46)%Z && head ascii_digit_c (drop_run (Z.eqb 95) r) then (46%Z :: char_run von_figure r, drop_run von_figure r) else ([], cs)
  | [] => ([], [])
  end.
Definition counts (cs : list Z) : bool := head ascii_digit_c cs || head (Z.eqb 95) cs && head ascii_digit_c (tl cs).
Definition exponent1 (cs : list Z) : list Z * list Z :=
  match cs with
  | c :: r =>
      if is_exp c && counts (after_opt is_sign r) then (c :: opt is_sign r ++ char_run von_figure (after_opt is_sign r), drop_run von_figure (after_opt is_sign r)) else ([], cs)
  | [] => ([], [])
  end.
Definition numeral1 (cs : list Z) : list Z * list Z :=
  let m := opt (Z.eqb 45) cs in
  let '(i, c2) := whole1 (after_opt (Z.eqb 45) cs) in
  let '(f, c3) := fraction1 c2 in
  let '(e, c4) := exponent1 c3 in
  (m ++ i ++ f ++ e, c4).
Definition begins1 (cs : list Z) : bool := head ascii_digit_c cs || (head (Z.eqb 45) cs || head (Z.eqb 46) cs) && head ascii_digit_c (tl cs).
Definition number1 (cs : list Z) : option (list Z * list Z) :=
  if begins1 cs then let '(s, t) := numeral1 cs in if head von_start t then None else Some (s, t) else None.

Fixpoint escaped1 (q : Z) (e : bool) (cs : list Z) : bool * list Z * list Z :=
  match cs with
  | [] => (false, [], [])
  | c :: r =>
      if negb e && (c =? q)%Z then (true, [c], r)
      else let '(b, s, t) := escaped1 q (negb e && (c =? 92)%Z) r in (b, c :: s, t)
  end.
Definition raw1 (cs : list Z) : bool := prefixb (lit "raw") cs && head von_quote (skipn 3 cs).
Definition string1 (cs : list Z) : option (nat * list Z * list Z) :=
  let p := if raw1 cs then lit "raw" else [] in
  let c1 := if raw1 cs then skipn 3 cs else cs in
  match c1 with
  | q :: _ =>
      if von_quote q then
        let o := char_run (Z.eqb q) c1 in
        let c2 := drop_run (Z.eqb q) c1 in
        if length o =? 2 then Some (NString, p ++ o, c2)
        else let '(b, s, t) := if negb (raw1 cs) && (length o =? 1) then escaped1 q false c2 else until (repeat q (length o)) c2 in
          Some (if b then NString else NError, p ++ o ++ s, t)
      else None
  | [] => None
  end.
Definition kind1 (s : list Z) : nat := if existsb (str_eqb s) [lit "true"; lit "false"] then NBool else if str_eqb s (lit "null") then NNull else NIdentifier.
Definition von1 (cs : list Z) : nat * list Z * list Z :=
  match cs with
  | [] => (0, [], [])
  | c :: r =>
      if von_blank c then (NWhitespace, char_run von_blank cs, drop_run von_blank cs)
      else if (c =? 10)%Z then (NNewline, [10%Z], r)
      else if (c =? 13)%Z then if head (Z.eqb 10) r then (NNewline, [13; 10]%Z, tl r) else (NNewline, [13%Z], r)
      else if (c =? 35)%Z then (NComment, 35%Z :: char_run in_line r, drop_run in_line r)
      else if von_start c && negb (raw1 cs) then (kind1 (char_run von_word cs), char_run von_word cs, drop_run von_word cs)
      else match number1 cs with
      | Some (s, t) => (NNumber, s, t)
      | None =>
          match string1 cs with
          | Some x => x
          | None => match von_mark c with Some k => (k, [c], r) | None => (NError, [c], r) end
          end
      end
  end.

(** ** Facts about the readers *)
Lemma whole1_app cs : fst (whole1 cs) ++ snd (whole1 cs) = cs.
Proof. unfold whole1. destruct (head ascii_digit_c cs); [apply run_drop | reflexivity]. Qed.
Lemma fraction1_app cs : fst (fraction1 cs) ++ snd (fraction1 cs) = cs.
Proof. destruct cs as [| c r]; [reflexivity|]. cbn [fraction1]. destruct (Z.eqb_spec c 46) as [-> |]; [|reflexivity]. cbn [andb]. destruct (head _ _); [|reflexivity]. cbn. now rewrite run_drop. Qed.
Lemma exponent1_app cs : fst (exponent1 cs) ++ snd (exponent1 cs) = cs.
Proof. destruct cs as [| c r]; [reflexivity|]. cbn [exponent1]. destruct (is_exp c && _); [|reflexivity]. cbn. now rewrite <- app_assoc, run_drop, opt_app. Qed.
Lemma numeral1_app cs : begins1 cs = true -> fst (numeral1 cs) ++ snd (numeral1 cs) = cs /\ fst (numeral1 cs) <> [].
Proof.
  intros H. unfold begins1 in H. unfold numeral1. pose proof (whole1_app (after_opt (Z.eqb 45) cs)) as A. destruct (whole1 _) as [i c2] eqn:Ei. pose proof (fraction1_app c2) as A1. destruct (fraction1 c2) as [f c3] eqn:Ef. pose proof (exponent1_app c3) as A2. destruct (exponent1 c3) as [e c4].
  cbn [fst snd] in *. pose proof (opt_app (Z.eqb 45) cs) as A0. split; [now rewrite <- !app_assoc, A2, A1, A|].
  destruct cs as [| c r]; [discriminate|]. intros N. apply app_eq_nil in N. destruct N as [N1 N]. apply app_eq_nil in N. destruct N as [N2 N]. apply app_eq_nil in N. destruct N as [N3 N]. subst i f.
  unfold opt in N1. unfold after_opt in Ei. destruct (45 =? c)%Z eqn:E45; [discriminate|]. unfold whole1, head in *. cbn [hd_error von_opt tl] in *. rewrite E45 in H. cbn [orb] in H. destruct (ascii_digit_c c) eqn:D.
  - injection Ei as Ei _. cbn [char_run] in Ei. replace (von_figure c) with true in Ei; [discriminate|]. symmetry. unfold von_figure. now rewrite D.
  - cbn [orb] in H. injection Ei as <-. apply andb_true_iff in H. destruct H as [H1 H2]. cbn [fraction1] in Ef. rewrite (Z.eqb_sym c), H1 in Ef. cbn [andb] in Ef. destruct r as [| d r]; [discriminate|]. cbn [hd_error von_opt] in H2.
    replace (drop_run (Z.eqb 95) (d :: r)) with (d :: r) in Ef. { unfold head in Ef. cbn [hd_error von_opt] in Ef. rewrite H2 in Ef. discriminate. }
    unfold drop_run. cbn [char_run]. replace (95 =? d)%Z with false; [reflexivity|]. symmetry. apply Z.eqb_neq. intros <-. discriminate.
Qed.
Lemma number1_app cs s t : number1 cs = Some (s, t) -> s ++ t = cs /\ s <> [].
Proof.
  unfold number1. destruct (begins1 cs) eqn:H; [|discriminate]. pose proof (numeral1_app cs H) as A. destruct (numeral1 cs) as [s0 t0]. destruct (head von_start t0); [discriminate|]. intros X. injection X as <- <-. exact A.
Qed.
Lemma escaped1_app q cs : forall e, let '(_, s, t) := escaped1 q e cs in s ++ t = cs.
Proof. induction cs as [| c r IH]; intros e; [reflexivity|]. cbn [escaped1]. destruct (negb e && (c =? q)%Z); [reflexivity|]. specialize (IH (negb e && (c =? 92)%Z)). destruct (escaped1 q _ r) as [[b s] t]. cbn. now rewrite IH. Qed.
Lemma until_repeat q c n k r : c <> q -> k < n -> until (repeat q n) (repeat q k ++ c :: r) = (fst (fst (until (repeat q n) r)), repeat q k ++ c :: snd (fst (until (repeat q n) r)), snd (until (repeat q n) r)).
Proof.
  intros N. induction k as [| k IH]; intros L.
  - cbn [repeat app XmlLexProofs.until]. destruct n as [| n]; [lia|]. cbn [repeat prefixb]. replace (q =? c)%Z with false by (symmetry; apply Z.eqb_neq; congruence). cbn [andb]. change (q :: repeat q n) with (repeat q (S n)). now destruct (until _ r) as [[b s] t].
  - assert (P : prefixb (repeat q n) (repeat q (S k) ++ c :: r) = false).
    { apply XmlLexProofs.prefixb_no. intros x E. assert (D : nth (S k) (repeat q (S k) ++ c :: r) 0%Z = c) by (rewrite app_nth2; rewrite repeat_length; [now rewrite Nat.sub_diag | lia]).
      rewrite E, app_nth1 in D by (rewrite repeat_length; lia). apply N. rewrite <- D. apply (repeat_spec n q). apply nth_In. rewrite repeat_length. lia. }
    cbn [repeat app XmlLexProofs.until]. cbn [repeat app] in P. rewrite P, IH by lia. reflexivity.
Qed.
Lemma until_all q n k : k < n -> until (repeat q n) (repeat q k) = (false, repeat q k, []).
Proof.
  intros L. apply XmlLexProofs.until_open. intros x y E. apply (f_equal (@length Z)) in E. rewrite !app_length, !repeat_length in E. lia.
Qed.
Lemma until_hit e r : e <> [] -> until e (e ++ r) = (true, e, r).
Proof.
  intros N. destruct e as [| c e]; [contradiction|]. cbn [app XmlLexProofs.until]. assert (P : prefixb (c :: e) (c :: e ++ r) = true) by (apply XmlLexProofs.prefixb_spec; now exists r). rewrite P.
  change (c :: e ++ r) with ((c :: e) ++ r). now rewrite skipn_app, skipn_all, Nat.sub_diag.
Qed.

Section Steps.
  Variable text : str.
  Let src := flat_source text.
  Hypothesis Hs : serves src text.
  Notation view := (view src text).
  Notation stepped := (stepped src text).
  Notation same := (XmlLexProofs.same src text).
  Notation reading := (XmlLexProofs.reading src text).

  Lemma view_slice l l' s r : view l (s ++ r) -> view l' r -> flat_text_in text (lx_pos l) (lx_pos l') = encode s.
  Proof.
    intros V V'. pose proof (view_pos src text l _ V) as P. pose proof (view_pos src text l' _ V') as P'. rewrite encode_app, app_length in P.
    rewrite flat_text_in_spec; [|lia | lia | apply V | apply V']. destruct V as [_ (_ & L & E)]. unfold substr in *. rewrite firstn_all2 in E by (rewrite skipn_length; lia). rewrite E, encode_app.
    replace (lx_pos l' - lx_pos l) with (length (encode s)) by lia. now rewrite firstn_app, firstn_all, Nat.sub_diag, firstn_O, app_nil_r.
  Qed.
  Lemma token_view k l l0 l' r : lx_toks l' = lx_toks l -> lx_pos l0 = lx_pos l -> view l' r -> exists x, von_token_from k l0 l' = Some (true, x) /\ stepped l x (Some k) r.
  Proof. intros T O V. eexists. split; [reflexivity|]. split; [exact V|]. cbn [add_token lx_toks]. rewrite T, O. reflexivity. Qed.
  Lemma back_view l l' cs : view l cs -> lx_toks l' = lx_toks l -> (exists r, view l' r) ->
    same l (Lexer (set_position src (lx_cur l') (lx_pos l)) (lx_toks l')) cs.
  Proof.
    intros V T (r & V'). pose proof (view_pos src text l _ V) as P. set (l2 := Lexer _ _). assert (Eo : lx_pos l2 = lx_pos l) by (unfold l2, lx_pos at 1, set_position; cbn [lx_cur cu_off]; rewrite (Hlen src text Hs); lia).
    split; [|split; [exact Eo | exact T]]. split; [split; [exact (proj1 (proj1 V')) | change (cu_off (lx_cur l2)) with (lx_pos l2); rewrite Eo; apply V] | rewrite Eo; apply V].
  Qed.
  Definition drop_text (o : option (nat * list Z * list Z)) : option (nat * list Z) := option_map (fun '(k, _, t) => (k, t)) o.

  Definition r_blank (cs : list Z) : option (nat * list Z) := match char_run von_blank cs with [] => None | _ => Some (NWhitespace, drop_run von_blank cs) end.
  Lemma whitespace_view cs : reading (von_whitespace text) cs (r_blank cs).
  Proof.
    intros l V. unfold von_whitespace, r_blank. destruct (token_if_view src text Hs NWhitespace von_blank l cs V) as (l' & E & V' & T & O). fold src. rewrite E. exists l'. pose proof (run_drop von_blank cs) as D. destruct (char_run von_blank cs); (split; [reflexivity|]).
    - cbn [app] in D. rewrite D in V'. rewrite app_nil_r in T. split; [assumption|]. split; [now apply O | assumption].
    - split; assumption.
  Qed.
  Definition r_line (cs : list Z) : option (nat * list Z) :=
    if head (Z.eqb 10) cs then Some (NNewline, tl cs) else if head (Z.eqb 13) cs then Some (NNewline, if head (Z.eqb 10) (tl cs) then tl (tl cs) else tl cs) else None.
  Lemma is_head x cs : is_char x (hd_error cs) = head (Z.eqb x) cs.
  Proof. unfold head. destruct cs; [reflexivity|]. cbn. apply Z.eqb_sym. Qed.
  Lemma head_cons x cs : head (Z.eqb x) cs = true -> cs = x :: tl cs.
  Proof. destruct cs as [| c r]; [discriminate|]. unfold head. cbn. intros E. apply Z.eqb_eq in E. now subst. Qed.
  Lemma current_view l cs : view l cs -> exists l', lx_current src l = (hd_error cs, l') /\ same l l' cs.
  Proof. intros V. destruct (view_current src text Hs l cs V) as (l1 & -> & V1 & O1 & T1). exists l1. split; [reflexivity|]. now split. Qed.
  Lemma over1 l cs x : (0 <= x < 128)%Z -> head (Z.eqb x) cs = true -> view l cs -> view (lx_advance src l 1) (tl cs) /\ lx_toks (lx_advance src l 1) = lx_toks l.
  Proof. intros A H V. apply head_cons in H. rewrite H in V. now apply (view_advance1 src text Hs l x). Qed.
  Lemma newline_view cs : reading (von_newline text) cs (r_line cs).
  Proof.
    intros l V. unfold von_newline, r_line. fold src. destruct (current_view l cs V) as (l1 & -> & V1 & O1 & T1). rewrite !is_head. destruct (head (Z.eqb 10) cs) eqn:H10.
    - destruct (over1 l1 cs 10 ltac:(lia) H10 V1) as (V2 & T2). apply (token_view NNewline l l); [congruence | reflexivity | assumption].
    - destruct (head (Z.eqb 13) cs) eqn:H13.
      + destruct (over1 l1 cs 13 ltac:(lia) H13 V1) as (V2 & T2). destruct (current_view _ _ V2) as (l2 & -> & V3 & O3 & T3). rewrite is_head. destruct (head (Z.eqb 10) (tl cs)) eqn:H.
        * destruct (over1 l2 _ 10 ltac:(lia) H V3) as (V4 & T4). apply (token_view NNewline l l); [congruence | reflexivity | assumption].
        * apply (token_view NNewline l l); [congruence | reflexivity | assumption].
      + exists l1. split; [reflexivity|]. now split.
  Qed.
  Definition r_comment (cs : list Z) : option (nat * list Z) := if head (Z.eqb 35) cs then Some (NComment, drop_run in_line (tl cs)) else None.
  Lemma comment_view cs : reading (von_comment text) cs (r_comment cs).
  Proof.
    intros l V. unfold von_comment, r_comment. fold src. destruct (current_view l cs V) as (l1 & -> & V1 & O1 & T1). rewrite is_head. destruct (head (Z.eqb 35) cs) eqn:H.
    - destruct (over1 l1 cs 35 ltac:(lia) H V1) as (V2 & T2). destruct (view_take src text Hs _ _ in_line V2) as (l3 & E3 & V3 & O3 & T3). unfold in_line in E3 at 1. rewrite E3. apply (token_view NComment l l); [congruence | reflexivity | assumption].
    - exists l1. split; [reflexivity|]. now split.
  Qed.

  Lemma peeks l a r : Forall PyProofs.ascii a -> view l (a ++ r) -> von_peek text l (length a) = hd_error r.
  Proof. intros A V. exact (PyProofs.view_peek src text Hs l a r A V). Qed.
  Lemma raw_view l cs : view l cs -> von_raw text (hd_error cs) l = raw1 cs.
  Proof.
    intros V. unfold von_raw, raw1. destruct cs as [| c r]; [reflexivity|]. cbn [hd_error is_char]. change (prefixb (lit "raw") (c :: r)) with ((114 =? c)%Z && prefixb (lit "aw") r). rewrite (Z.eqb_sym c). destruct (Z.eqb_spec 114 c) as [<- |]; [cbn [andb] | reflexivity].
    pose proof (peeks l [114%Z] r ltac:(repeat constructor; lia) V) as P1. cbn [length] in P1. rewrite P1. destruct r as [| c1 r]; [reflexivity|]. cbn [hd_error is_char]. change (prefixb (lit "aw") (c1 :: r)) with ((97 =? c1)%Z && prefixb (lit "w") r). rewrite (Z.eqb_sym c1). destruct (Z.eqb_spec 97 c1) as [<- |]; [cbn [andb] | reflexivity].
    pose proof (peeks l [114; 97]%Z r ltac:(repeat constructor; lia) V) as P2. cbn [length] in P2. rewrite P2. destruct r as [| c2 r]; [reflexivity|]. cbn [hd_error is_char]. change (prefixb (lit "w") (c2 :: r)) with ((119 =? c2)%Z && true). rewrite (Z.eqb_sym c2). destruct (Z.eqb_spec 119 c2) as [<- |]; [cbn [andb] | reflexivity].
    pose proof (peeks l [114; 97; 119]%Z r ltac:(repeat constructor; lia) V) as P3. cbn [length] in P3. rewrite P3. reflexivity.
  Qed.
  Definition r_word (cs : list Z) : option (nat * list Z) := if head von_start cs && negb (raw1 cs) then Some (kind1 (char_run von_word cs), drop_run von_word cs) else None.
  Lemma word_ascii s : Forall (fun c => von_word c = true) s -> encode s = s.
  Proof. intros F. apply ascii_encode. eapply Forall_impl; [|exact F]. intros c H. apply wordb in H. unfold word, start, letter, digit in H. lia. Qed.
  Lemma identifier_view cs : reading (von_identifier text) cs (r_word cs).
  Proof.
    intros l V. unfold von_identifier, r_word. fold src. destruct (current_view l cs V) as (l1 & -> & V1 & O1 & T1). fold (head von_start cs). destruct (head von_start cs); cbn [andb]; [|exists l1; split; [reflexivity|]; now split].
    rewrite (raw_view l1 cs V1). destruct (raw1 cs); cbn [negb]; [exists l1; split; [reflexivity|]; now split|].
    destruct (view_take src text Hs _ _ von_word V1) as (l2 & -> & V2 & O2 & T2). assert (E : flat_text_in text (lx_pos l) (lx_pos l2) = char_run von_word cs).
    { rewrite (view_slice l l2 (char_run von_word cs) (drop_run von_word cs)); [apply word_ascii, char_run_all | now rewrite run_drop | assumption]. }
    rewrite E. change (if existsb _ _ then NBool else _) with (kind1 (char_run von_word cs)). apply token_view; [congruence | reflexivity | assumption].
  Qed.

  (** *** Numbers *)
  Lemma take_view l cs p : view l cs -> exists l', lx_take_while src (scan_fuel src) p l = Some l' /\ view l' (drop_run p cs) /\ lx_toks l' = lx_toks l.
  Proof. intros V. destruct (view_take src text Hs l cs p V) as (l' & E & V' & _ & T'). now exists l'. Qed.
  Lemma underscores_view : forall fuel a u r l, Forall PyProofs.ascii a -> view l (a ++ u ++ r) -> Forall (eq 95%Z) u -> head (Z.eqb 95) r = false -> length u < fuel -> von_underscores text fuel (length a) l = Some (length (a ++ u)).
  Proof.
    induction fuel as [| f IH]; intros a u r l A V U N L; [lia|]. cbn [von_underscores]. rewrite (peeks l a (u ++ r) A V), is_head. destruct u as [| x u].
    - cbn [app]. rewrite N, app_nil_r. reflexivity.
    - inversion U as [| ? ? <- U']; subst. change (head (Z.eqb 95) ((95%Z :: u) ++ r)) with true. cbv iota. replace (S (length a)) with (length (a ++ [95%Z])) by (rewrite app_length; cbn; lia). rewrite (IH (a ++ [95%Z]) u r l); [now rewrite <- app_assoc | | now rewrite <- app_assoc | assumption | assumption | cbn in L; lia].
      apply Forall_app. split; [assumption|]. repeat constructor; lia.
  Qed.
  Lemma fraction_view l cs : view l cs -> exists l', von_fraction text l = Some l' /\ view l' (snd (fraction1 cs)) /\ lx_toks l' = lx_toks l.
  Proof.
    intros V. unfold von_fraction. fold src. destruct (current_view l cs V) as (l1 & -> & V1 & O1 & T1). rewrite is_head. destruct (head (Z.eqb 46) cs) eqn:H.
    - apply head_cons in H. destruct cs as [| c r]; [discriminate|]. injection H as ->. cbn [tl].
      assert (U : Forall (eq 95%Z) (char_run (Z.eqb 95) r)) by (eapply Forall_impl; [|apply char_run_all]; intros a; apply Z.eqb_eq).
      assert (N : head (Z.eqb 95) (drop_run (Z.eqb 95) r) = false) by (pose proof (drop_head (Z.eqb 95) r) as D; destruct (drop_run (Z.eqb 95) r); [reflexivity | exact D]).
      assert (V1' : view l1 ([46%Z] ++ char_run (Z.eqb 95) r ++ drop_run (Z.eqb 95) r)) by now rewrite run_drop.
      change (von_underscores text (scan_fuel src) 1 l1) with (von_underscores text (scan_fuel src) (length [46%Z]) l1). rewrite (underscores_view (scan_fuel src) [46%Z] (char_run (Z.eqb 95) r) (drop_run (Z.eqb 95) r) l1 ltac:(repeat constructor; lia) V1' U N) by (eapply Nat.le_lt_trans; [|exact (view_length no_char no_char src text Hs _ _ V1')]; rewrite !app_length; lia).
      rewrite app_assoc in V1'. rewrite (peeks l1 ([46%Z] ++ char_run (Z.eqb 95) r) (drop_run (Z.eqb 95) r)); [|apply Forall_app; split; [repeat constructor; lia | eapply Forall_impl; [|exact U]; intros a <-; split; lia] | exact V1'].
      fold (head ascii_digit_c (drop_run (Z.eqb 95) r)). cbn [fraction1]. change (46 =? 46)%Z with true. cbn [andb]. destruct (head ascii_digit_c (drop_run (Z.eqb 95) r)).
      + destruct (view_advance1 src text Hs l1 46 r ltac:(lia) V1) as (V2 & T2). destruct (take_view _ _ von_figure V2) as (l3 & -> & V3 & T3). exists l3. split; [reflexivity|]. split; [exact V3 | congruence].
      + exists l1. now split.
    - exists l1. split; [reflexivity|]. split; [|assumption]. destruct cs as [| c r]; [assumption|]. cbn [fraction1]. change (head (Z.eqb 46) (c :: r)) with (46 =? c)%Z in H. rewrite Z.eqb_sym, H. cbn [andb]. assumption.
  Qed.
  Lemma exp_head cs : is_char 101 (hd_error cs) || is_char 69 (hd_error cs) = head is_exp cs.
  Proof. now destruct cs. Qed.
  Lemma sign_head cs : is_char 43 (hd_error cs) || is_char 45 (hd_error cs) = head is_sign cs.
  Proof. now destruct cs. Qed.
  Lemma exponent_view l cs : view l cs -> exists l', von_exponent text l = Some l' /\ view l' (snd (exponent1 cs)) /\ lx_toks l' = lx_toks l.
  Proof.
    intros V. unfold von_exponent. fold src. destruct (current_view l cs V) as (l1 & -> & V1 & O1 & T1). rewrite exp_head. destruct cs as [| c r]; [exists l1; now split|]. cbn [exponent1]. change (head is_exp (c :: r)) with (is_exp c). destruct (is_exp c) eqn:Ec; [|exists l1; now split]. cbn [andb].
    assert (Ac : (0 <= c < 128)%Z). { unfold is_exp in Ec. rewrite orb_true_iff, !Z.eqb_eq in Ec. lia. }
    pose proof (peeks l1 [c] r ltac:(repeat constructor; lia) V1) as P1. cbn [length] in P1. rewrite P1, sign_head. clear P1.
    assert (C : von_opt ascii_digit_c (von_peek text l1 (if head is_sign r then 2 else 1)) || is_char 95 (von_peek text l1 (if head is_sign r then 2 else 1)) && von_opt ascii_digit_c (von_peek text l1 (S (if head is_sign r then 2 else 1))) = counts (after_opt is_sign r)).
    { assert (G : forall a x, Forall PyProofs.ascii a -> view l1 (a ++ x) -> von_opt ascii_digit_c (von_peek text l1 (length a)) || is_char 95 (von_peek text l1 (length a)) && von_opt ascii_digit_c (von_peek text l1 (S (length a))) = counts x).
      { intros a x A W. rewrite (peeks l1 a x A W), is_head. unfold counts. fold (head ascii_digit_c x). f_equal. destruct (head (Z.eqb 95) x) eqn:H; [cbn [andb] | reflexivity]. apply head_cons in H. rewrite H in W.
        replace (S (length a)) with (length (a ++ [95%Z])) by (rewrite app_length; cbn; lia). rewrite (peeks l1 (a ++ [95%Z]) (tl x)); [reflexivity | | now rewrite <- app_assoc]. apply Forall_app. split; [assumption|]. repeat constructor; lia. }
      destruct r as [| d r].
      - exact (G [c] [] ltac:(repeat constructor; lia) V1).
      - cbn [after_opt]. change (head is_sign (d :: r)) with (is_sign d). destruct (is_sign d) eqn:Ed.
        + apply (G [c; d] r); [|exact V1]. unfold is_sign in Ed. rewrite orb_true_iff, !Z.eqb_eq in Ed. repeat constructor; lia.
        + exact (G [c] (d :: r) ltac:(repeat constructor; lia) V1). }
    rewrite C. destruct (counts (after_opt is_sign r)); [|exists l1; now split].
    destruct (view_advance1 src text Hs l1 c r Ac V1) as (V2 & T2). destruct (current_view _ _ V2) as (l2 & -> & V3 & O3 & T3). rewrite sign_head. cbn [snd].
    assert (W : exists l4, (if head is_sign r then lx_advance src l2 1 else l2) = l4 /\ view l4 (after_opt is_sign r) /\ lx_toks l4 = lx_toks l2).
    { destruct r as [| d r]; [exists l2; now split|]. cbn [after_opt]. unfold head. cbn [hd_error von_opt]. destruct (is_sign d) eqn:Ed; [|exists l2; now split]. eexists. split; [reflexivity|]. apply (view_advance1 src text Hs l2 d r); [|assumption]. unfold is_sign in Ed. rewrite orb_true_iff, !Z.eqb_eq in Ed. lia. }
    destruct W as (l4 & -> & V4 & T4). destruct (take_view _ _ von_figure V4) as (l5 & -> & V5 & T5). exists l5. split; [reflexivity|]. split; [assumption | congruence].
  Qed.
  Definition r_number (cs : list Z) : option (nat * list Z) := option_map (fun '(_, t) => (NNumber, t)) (number1 cs).
  Lemma number_view cs : reading (von_number text) cs (r_number cs).
  Proof.
    intros l V. unfold von_number, r_number. fold src. destruct (current_view l cs V) as (l1 & -> & V1 & O1 & T1). rewrite !is_head.
    assert (C : (head (Z.eqb 45) cs || head (Z.eqb 46) cs) && von_opt ascii_digit_c (von_peek text l1 1) = (head (Z.eqb 45) cs || head (Z.eqb 46) cs) && head ascii_digit_c (tl cs)).
    { destruct cs as [| c r]; [reflexivity|]. cbn [tl]. change (head (Z.eqb 45) (c :: r)) with (45 =? c)%Z. change (head (Z.eqb 46) (c :: r)) with (46 =? c)%Z. destruct ((45 =? c)%Z || (46 =? c)%Z) eqn:E; [cbn [andb] | reflexivity]. rewrite orb_true_iff, !Z.eqb_eq in E. pose proof (peeks l1 [c] r ltac:(repeat constructor; lia) V1) as P. cbn [length] in P. now rewrite P. }
    pose proof (numeral1_app cs) as App. unfold number1. fold (head ascii_digit_c cs). rewrite C. fold (begins1 cs). destruct (begins1 cs); [|exists l1; split; [reflexivity|]; now split]. specialize (App eq_refl). unfold numeral1 in *.
    assert (W : view (if head (Z.eqb 45) cs then lx_advance src l1 1 else l1) (after_opt (Z.eqb 45) cs) /\ lx_toks (if head (Z.eqb 45) cs then lx_advance src l1 1 else l1) = lx_toks l1).
    { destruct (head (Z.eqb 45) cs) eqn:H45.
      - pose proof (over1 l1 cs 45 ltac:(lia) H45 V1) as W. apply head_cons in H45. replace (after_opt (Z.eqb 45) cs) with (tl cs) by (rewrite H45; reflexivity). exact W.
      - split; [|reflexivity]. destruct cs as [| c r]; [exact V1|]. change (head (Z.eqb 45) (c :: r)) with (45 =? c)%Z in H45. cbn [after_opt]. now rewrite H45. }
    destruct W as (W & TW). destruct (current_view _ _ W) as (l2 & -> & V2 & O2 & T2). fold (head ascii_digit_c (after_opt (Z.eqb 45) cs)).
    assert (W3 : exists l3, (if head ascii_digit_c (after_opt (Z.eqb 45) cs) then lx_take_while src (scan_fuel src) von_figure l2 else Some l2) = Some l3 /\ view l3 (snd (whole1 (after_opt (Z.eqb 45) cs))) /\ lx_toks l3 = lx_toks l2).
    { unfold whole1. destruct (head ascii_digit_c (after_opt (Z.eqb 45) cs)); [apply take_view; assumption | exists l2; now split]. }
    destruct W3 as (l3 & -> & V3 & T3). destruct (whole1 _) as [i c2]. cbn [snd] in V3. destruct (fraction_view l3 c2 V3) as (l4 & -> & V4 & T4). destruct (fraction1 c2) as [f c3]. cbn [snd] in V4. destruct (exponent_view l4 c3 V4) as (l5 & -> & V5 & T5). destruct (exponent1 c3) as [e c4]. cbn [snd] in V5.
    cbn [fst snd] in App. destruct App as [A N]. destruct (current_view l5 c4 V5) as (l6 & E6 & V6 & O6 & T6). rewrite (lx_moved_run src text l l5 (opt (Z.eqb 45) cs ++ i ++ f ++ e) c4); [|now rewrite A | assumption]. destruct (opt (Z.eqb 45) cs ++ i ++ f ++ e); [contradiction|]. cbv iota. rewrite E6. fold (head von_start c4).
    destruct (head von_start c4); cbn [option_map].
    - eexists. split; [reflexivity|]. apply (back_view l l6 cs); [assumption | congruence | now exists c4].
    - apply token_view; [congruence | reflexivity | assumption].
  Qed.

  (** *** Strings *)
  Lemma loop_view raw q n : negb raw && (n =? 1) = false -> forall fuel k cs l, view l cs -> length cs < fuel -> k < n ->
    exists l', von_string_loop text raw q n fuel k false l = Some (fst (fst (until (repeat q n) (repeat q k ++ cs))), l') /\ view l' (snd (until (repeat q n) (repeat q k ++ cs))) /\ lx_toks l' = lx_toks l.
  Proof.
    intros R. induction fuel as [| f IH]; intros k cs l V L K; [lia|]. cbn [von_string_loop]. fold src. destruct (current_view l cs V) as (l1 & -> & V1 & O1 & T1). destruct cs as [| c r]; cbn [hd_error].
    - rewrite app_nil_r, until_all by assumption. exists l1. now split.
    - rewrite andb_false_r. replace (negb raw && (c =? 92)%Z && (n =? 1)) with false by (destruct (negb raw), (c =? 92)%Z; cbn in *; now rewrite ?R).
      destruct (view_advance src text Hs l1 c r V1) as (V2 & _ & T2). cbn [length] in L. destruct (Z.eqb_spec c q) as [-> | N].
      + assert (E : repeat q k ++ q :: r = repeat q (S k) ++ r) by (cbn [repeat]; rewrite repeat_cons, <- app_assoc; reflexivity). rewrite E. destruct (Nat.eqb_spec (S k) n) as [<- | Nn].
        * rewrite until_hit by discriminate. eexists. split; [reflexivity|]. split; [exact V2 | congruence].
        * destruct (IH (S k) r _ V2 ltac:(lia) ltac:(lia)) as (l' & E' & V' & T'). exists l'. split; [exact E'|]. split; [exact V' | congruence].
      + rewrite until_repeat by assumption. cbn [fst snd]. destruct (IH 0 r _ V2 ltac:(lia) ltac:(lia)) as (l' & E' & V' & T'). cbn [repeat app] in E', V'. exists l'. split; [exact E'|]. split; [exact V' | congruence].
  Qed.
  Lemma escaped_view q : q <> 92%Z -> forall fuel cs e l, view l cs -> length cs < fuel ->
    exists l', von_string_loop text false q 1 fuel 0 e l = Some (fst (fst (escaped1 q e cs)), l') /\ view l' (snd (escaped1 q e cs)) /\ lx_toks l' = lx_toks l.
  Proof.
    intros Q. induction fuel as [| f IH]; intros cs e l V L; [lia|]. cbn [von_string_loop]. fold src. destruct (current_view l cs V) as (l1 & -> & V1 & O1 & T1). destruct cs as [| c r]; cbn [hd_error].
    - exists l1. now split.
    - destruct (view_advance src text Hs l1 c r V1) as (V2 & _ & T2). cbn [length] in L. cbn [negb andb Nat.eqb escaped1]. rewrite andb_true_r.
      assert (G : forall e', exists l', von_string_loop text false q 1 f 0 e' (lx_advance src l1 (char_len c)) = Some (fst (fst (escaped1 q e' r)), l') /\ view l' (snd (escaped1 q e' r)) /\ lx_toks l' = lx_toks l).
      { intros e'. destruct (IH r e' _ V2 ltac:(lia)) as (l' & E & V' & T'). exists l'. split; [assumption|]. split; [assumption | congruence]. }
      destruct e; cbn [negb andb].
      + destruct (G false) as (l' & -> & V' & T'). exists l'. destruct (escaped1 q false r) as [[b s] t]. now split.
      + destruct (Z.eqb_spec c 92) as [-> | N].
        * replace (92 =? q)%Z with false by (symmetry; apply Z.eqb_neq; congruence). change (char_len 92) with 1 in G. destruct (G true) as (l' & -> & V' & T'). exists l'. destruct (escaped1 q true r) as [[b s] t]. now split.
        * destruct (Z.eqb_spec c q) as [-> | N'].
          -- eexists. split; [reflexivity|]. split; [exact V2 | congruence].
          -- destruct (G false) as (l' & -> & V' & T'). exists l'. destruct (escaped1 q false r) as [[b s] t]. now split.
  Qed.
  Lemma run_repeat q cs : char_run (Z.eqb q) cs = repeat q (length (char_run (Z.eqb q) cs)).
  Proof. induction cs as [| c r IH]; [reflexivity|]. cbn [char_run]. destruct (Z.eqb_spec q c) as [<- |]; [|reflexivity]. cbn [length repeat]. now rewrite <- IH. Qed.
  Lemma encode_repeat q n : (0 <= q < 128)%Z -> length (encode (repeat q n)) = n.
  Proof. intros A. rewrite (proj1 (ascii_encode (repeat q n) ltac:(apply Forall_forall; intros x I; apply repeat_spec in I; now subst x))). apply repeat_length. Qed.
  Definition r_string (cs : list Z) : option (nat * list Z) := drop_text (string1 cs).
  Lemma string_view cs : reading (von_string text) cs (r_string cs).
  Proof.
    intros l V. unfold von_string. fold src. destruct (current_view l cs V) as (l1 & -> & V1 & O1 & T1). rewrite (raw_view l1 cs V1). unfold r_string, string1.
    assert (W : exists l2 c1, (if raw1 cs then lx_advance src l1 3 else l1) = l2 /\ (if raw1 cs then skipn 3 cs else cs) = c1 /\ view l2 c1 /\ lx_toks l2 = lx_toks l1 /\
      (if raw1 cs then von_peek text l1 3 else if von_opt von_quote (hd_error cs) then hd_error cs else None) = match c1 with q :: _ => if von_quote q then Some q else None | [] => None end).
    { destruct (raw1 cs) eqn:R.
      - apply andb_true_iff in R. destruct R as [R1 R2]. apply XmlLexProofs.prefixb_skip in R1. change (length (lit "raw")) with 3 in R1. rewrite R1 in V1. destruct (XmlLexProofs.view_over src text Hs (lit "raw") _ l1 ltac:(repeat constructor; lia) V1) as (V2 & T2). change (length (lit "raw")) with 3 in V2, T2.
        eexists _, _. split; [reflexivity|]. split; [reflexivity|]. split; [exact V2|]. split; [exact T2|]. pose proof (peeks l1 (lit "raw") _ ltac:(repeat constructor; lia) V1) as P. change (length (lit "raw")) with 3 in P. rewrite P. unfold head in R2. destruct (skipn 3 cs) as [| q r]; [discriminate|]. cbn [hd_error von_opt] in *. now rewrite R2.
      - exists l1, cs. split; [reflexivity|]. split; [reflexivity|]. split; [exact V1|]. split; [reflexivity|]. destruct cs as [| q r]; [reflexivity|]. cbn [hd_error von_opt]. now destruct (von_quote q). }
    destruct W as (l2 & c1 & -> & -> & V2 & T2 & ->). destruct c1 as [| q r]; [exists l1; split; [reflexivity|]; now split|]. destruct (von_quote q) eqn:Q; [|exists l1; split; [reflexivity|]; now split].
    assert (Aq : (0 <= q < 128)%Z /\ q <> 92%Z) by (apply quoteb in Q; unfold quote in Q; lia). destruct Aq as [Aq Nq].
    destruct (view_take src text Hs l2 (q :: r) (Z.eqb q) V2) as (l3 & -> & V3 & O3 & T3). rewrite (run_repeat q (q :: r)), encode_repeat in O3 by assumption. replace (lx_pos l3 - lx_pos l2) with (length (char_run (Z.eqb q) (q :: r))) by lia.
    assert (Np : length (char_run (Z.eqb q) (q :: r)) <> 0) by (cbn [char_run]; rewrite Z.eqb_refl; discriminate). set (n := length (char_run (Z.eqb q) (q :: r))) in *. set (c2 := drop_run (Z.eqb q) (q :: r)) in *. clearbody n c2.
    destruct (n =? 2).
    - cbn [drop_text option_map]. apply token_view; [congruence | reflexivity | assumption].
    - destruct (Nat.eqb_spec n 0); [contradiction|]. destruct (negb (raw1 cs) && (n =? 1)) eqn:Es.
      + apply andb_true_iff in Es. destruct Es as [E1 E2]. apply Nat.eqb_eq in E2. subst n. rewrite negb_true_iff in E1. rewrite E1. destruct (escaped_view q Nq (scan_fuel src) c2 false l3 V3 (view_length no_char no_char src text Hs _ _ V3)) as (l4 & -> & V4 & T4).
        destruct (escaped1 q false c2) as [[b s] t]. cbn [fst snd drop_text option_map] in *. apply token_view; [congruence | reflexivity | assumption].
      + destruct (loop_view (raw1 cs) q n Es (scan_fuel src) 0 c2 l3 V3 (view_length no_char no_char src text Hs _ _ V3) ltac:(lia)) as (l4 & -> & V4 & T4). cbn [repeat app] in *.
        destruct (until (repeat q n) c2) as [[b s] t]. cbn [fst snd drop_text option_map] in *. apply token_view; [congruence | reflexivity | assumption].
  Qed.

  Definition r_mark (cs : list Z) : option (nat * list Z) := match cs with c :: r => option_map (fun k => (k, r)) (von_mark c) | [] => None end.
  Lemma mark_ascii c k : von_mark c = Some k -> (0 <= c < 128)%Z.
  Proof. unfold von_mark. repeat (match goal with |- context [(c =? ?x)%Z] => destruct (Z.eqb_spec c x); [intros _; lia|] end). discriminate. Qed.
  Lemma operator_view cs : reading (von_operator text) cs (r_mark cs).
  Proof.
    intros l V. unfold von_operator. fold src. destruct (current_view l cs V) as (l1 & -> & V1 & O1 & T1). destruct cs as [| c r]; cbn [hd_error r_mark]; [exists l1; split; [reflexivity|]; now split|]. destruct (von_mark c) as [k|] eqn:M; cbn [option_map].
    - destruct (view_advance1 src text Hs l1 c r (mark_ascii c k M) V1) as (V2 & T2). apply token_view; [congruence | reflexivity | assumption].
    - exists l1. split; [reflexivity|]. now split.
  Qed.

  Definition r_all (cs : list Z) : list (option (nat * list Z)) := [r_blank cs; r_line cs; r_comment cs; r_word cs; r_number cs; r_string cs; r_mark cs].
  Lemma all_view cs : reading (try_rules (von_rules text)) cs (XmlLexProofs.first_of (r_all cs)).
  Proof.
    apply XmlLexProofs.rules_view. unfold von_rules, r_all. repeat (constructor; [first [apply whitespace_view | apply newline_view | apply comment_view | apply identifier_view | apply number_view | apply string_view | apply operator_view]|]). constructor.
  Qed.
  Lemma round_view l c r : view l (c :: r) -> let '(k, s, t) := von1 (c :: r) in exists l', von_round text l = Some l' /\ stepped l l' (Some k) t.
  Proof.
    intros V. unfold von_round. fold src. destruct (all_view (c :: r) l V) as (l' & -> & C).
    assert (H : XmlLexProofs.first_of (r_all (c :: r)) = let '(k, s, t) := von1 (c :: r) in if (k =? NError) && match string1 (c :: r) with None => true | _ => false end then None else Some (k, t)).
    { unfold r_all, von1, r_blank, r_line, r_comment, r_word, r_number, r_string, r_mark. cbn [char_run]. destruct (von_blank c); [reflexivity|]. cbn [XmlLexProofs.first_of].
      change (head (Z.eqb 10) (c :: r)) with (10 =? c)%Z. change (head (Z.eqb 13) (c :: r)) with (13 =? c)%Z. change (head (Z.eqb 35) (c :: r)) with (35 =? c)%Z. change (head von_start (c :: r)) with (von_start c). cbn [tl]. rewrite !(Z.eqb_sym _ c).
      destruct (c =? 10)%Z; [reflexivity|]. destruct (c =? 13)%Z; [now destruct (head (Z.eqb 10) r)|]. destruct (c =? 35)%Z; [reflexivity|].
      destruct (von_start c && negb (raw1 (c :: r))).
      { cbn [XmlLexProofs.first_of]. unfold kind1. destruct (von_word c); destruct (existsb _ _); try reflexivity; now destruct (str_eqb _ (lit "null")). }
      destruct (number1 (c :: r)) as [[s t]|]; [reflexivity|]. cbn [option_map XmlLexProofs.first_of]. destruct (string1 (c :: r)) as [[[k s] t]|]; [cbn [drop_text option_map]; now rewrite andb_false_r|]. cbn [drop_text option_map XmlLexProofs.first_of].
      unfold von_mark. repeat (match goal with |- context [(c =? ?x)%Z] => destruct (c =? x)%Z; [reflexivity|] end). reflexivity. }
    rewrite H in *. clear H. destruct (von1 (c :: r)) as [[k s] t] eqn:E. destruct ((k =? NError) && _) eqn:B.
    - destruct C as (V1 & O1 & T1). destruct (current_view l' _ V1) as (l2 & -> & V2 & O2 & T2). cbn [hd_error]. destruct (view_advance src text Hs l2 c r V2) as (V3 & _ & T3).
      assert (k = NError /\ t = r) as [-> ->]. { apply andb_true_iff in B. destruct B as [B1 B2]. apply Nat.eqb_eq in B1. split; [assumption|]. subst k. unfold von1 in E. destruct (string1 (c :: r)); [discriminate|].
        destruct (von_blank c); [discriminate|]. destruct (c =? 10)%Z; [discriminate|]. destruct (c =? 13)%Z; [destruct (head _ r); discriminate|]. destruct (c =? 35)%Z; [discriminate|]. destruct (von_start c && _); [unfold kind1 in E; destruct (existsb _ _); [discriminate|]; destruct (str_eqb _ _); discriminate|].
        destruct (number1 _) as [[? ?]|]; [discriminate|]. destruct (von_mark c); now injection E. }
      cbn [option_map von_token_from snd]. eexists. split; [reflexivity|]. split; [exact V3|]. cbn [add_token lx_toks]. rewrite T3, T2, T1, O1. reflexivity.
    - cbn [option_map]. exists l'. split; [reflexivity | assumption].
  Qed.
End Steps.

(** ** Pieces of the specification *)
Lemma run_plain P p s r : (forall c, p c = true <-> P c) -> run_of P s r -> char_run p (s ++ r) = s /\ drop_run p (s ++ r) = r.
Proof. exact (XmlLexProofs.run_plain P p s r). Qed.
Lemma run_spec P p cs : (forall c, p c = true <-> P c) -> run_of P (char_run p cs) (drop_run p cs).
Proof. exact (XmlLexProofs.run_spec P p cs). Qed.
Lemma head_spec P p cs : (forall c, p c = true <-> P c) -> head p cs = true <-> exists c r, cs = c :: r /\ P c.
Proof.
  intros H. destruct cs as [| c r]; [split; [discriminate | intros (c & r & E & _); discriminate]|]. change (head p (c :: r)) with (p c). rewrite H. split; [intros Pc; now exists c, r | intros (c' & r' & E & Pc); now injection E as <- <-].
Qed.
Lemma head_ends P p cs : (forall c, p c = true <-> P c) -> head p cs = false <-> ends P cs.
Proof.
  intros H. destruct cs as [| c r]; [split; [intros _ c; discriminate | reflexivity]|]. change (head p (c :: r)) with (p c). rewrite <- not_true_iff_false, H. split; [intros N d E; now injection E as <- | intros N; now apply N].
Qed.

(** *** Numbers *)
Lemma digit_figure c : digit c -> figure c. Proof. now left. Qed.
Lemma figures_run cs : head ascii_digit_c cs = true -> figures (char_run von_figure cs) /\ ends figure (drop_run von_figure cs).
Proof.
  intros H. apply (head_spec digit _ _ digitb) in H. destruct H as (d & t & -> & D). destruct (run_spec figure von_figure (d :: t) figureb) as [F E]. split; [|assumption]. cbn [char_run] in *. rewrite (proj2 (figureb d) (digit_figure d D)) in *. exists d, (char_run von_figure t). split; [reflexivity|]. split; [assumption|]. now inversion F.
Qed.
Lemma figures_read s r : figures s -> ends figure r -> head ascii_digit_c (s ++ r) = true /\ char_run von_figure (s ++ r) = s /\ drop_run von_figure (s ++ r) = r.
Proof.
  intros (d & t & -> & D & T) E. split; [apply digitb; exact D|]. apply (run_plain figure von_figure); [exact figureb|]. split; [constructor; [now left | assumption] | assumption].
Qed.
Lemma under_figures u : Forall (eq 95%Z) u -> Forall figure u.
Proof. intros U. eapply Forall_impl; [|exact U]. intros a <-. now right. Qed.
Lemma drop_under u d t : Forall (eq 95%Z) u -> digit d -> drop_run (Z.eqb 95) (u ++ d :: t) = d :: t /\ char_run (Z.eqb 95) (u ++ d :: t) = u.
Proof.
  intros U D. destruct (run_plain (eq 95%Z) (Z.eqb 95) u (d :: t)) as [A B]; [intros c; apply Z.eqb_eq | | now split]. split; [assumption|]. intros c E. injection E as <-. unfold digit in D. lia.
Qed.
Lemma fraction1_spec cs : let '(f, r) := fraction1 cs in maybe fraction f /\ (f <> [] -> ends figure r) /\ (f = [] -> r = cs /\ forall x y, cs = x ++ y -> ~ fraction x).
Proof.
  destruct cs as [| c r]; cbn [fraction1]; [split; [now left|]; split; [contradiction|]; intros _; split; [reflexivity|]; intros x y E (t & -> & _); discriminate|].
  destruct (Z.eqb_spec c 46) as [-> | N]; cbn [andb].
  - destruct (head ascii_digit_c (drop_run (Z.eqb 95) r)) eqn:H.
    + split; [|split; [intros _; apply (run_spec figure von_figure r figureb) | discriminate]]. right. exists (char_run von_figure r). split; [reflexivity|]. apply (head_spec digit _ _ digitb) in H. destruct H as (d & t & E & D).
      pose proof (run_drop (Z.eqb 95) r) as R. rewrite E in R. assert (U : Forall (eq 95%Z) (char_run (Z.eqb 95) r)) by (eapply Forall_impl; [|apply char_run_all]; intros a; apply Z.eqb_eq).
      exists (char_run (Z.eqb 95) r), d, (char_run von_figure t). split; [|split; [assumption|]; split; [assumption | apply (run_spec figure von_figure t figureb)]].
      rewrite <- R at 1. pose proof (run_spec figure von_figure t figureb) as [F1 F2].
      assert (G : run_of figure (char_run (Z.eqb 95) r ++ d :: char_run von_figure t) (drop_run von_figure t)). { split; [|assumption]. apply Forall_app. split; [now apply under_figures|]. constructor; [now left | assumption]. }
      apply (run_plain figure von_figure _ _ figureb) in G. destruct G as [G _]. rewrite <- app_assoc in G. cbn [app] in G. now rewrite run_drop in G.
    + split; [now left|]. split; [contradiction|]. intros _. split; [reflexivity|]. intros x y E (t & -> & u & d & t' & -> & U & D & T). change (lit ".") with [46%Z] in E. cbn [app] in E. injection E as ->. rewrite <- app_assoc in H. cbn [app] in H. rewrite (proj1 (drop_under u d (t' ++ y) U D)) in H. change (ascii_digit_c d = false) in H. apply digitb in D. congruence.
  - split; [now left|]. split; [contradiction|]. intros _. split; [reflexivity|]. intros x y E (t & -> & _). change (lit ".") with [46%Z] in E. cbn [app] in E. now injection E.
Qed.
Lemma fraction1_read f r : fraction f -> ends figure r -> fraction1 (f ++ r) = (f, r).
Proof.
  intros (t & -> & u & d & t' & -> & U & D & T) E. change (lit ".") with [46%Z]. cbn [app fraction1]. change (46 =? 46)%Z with true. cbn [andb]. rewrite <- app_assoc. cbn [app]. rewrite (proj1 (drop_under u d (t' ++ r) U D)). change (head ascii_digit_c (d :: t' ++ r)) with (ascii_digit_c d). rewrite (proj2 (digitb d) D).
  assert (G : run_of figure (u ++ d :: t') r). { split; [|assumption]. apply Forall_app. split; [now apply under_figures|]. constructor; [now left | assumption]. }
  apply (run_plain figure von_figure _ _ figureb) in G. destruct G as [G1 G2]. rewrite <- app_assoc in G1, G2. cbn [app] in G1, G2. now rewrite G1, G2.
Qed.
Lemma fraction1_none r : (forall x y, r = x ++ y -> ~ fraction x) -> fraction1 r = ([], r).
Proof.
  intros H. pose proof (fraction1_spec r) as S0. pose proof (fraction1_app r) as A. destruct (fraction1 r) as [f t]. destruct S0 as ([-> | F] & _ & _); [cbn in A; now subst t|]. now destruct (H f t (eq_sym A)).
Qed.
Lemma counts_spec cs : counts cs = true <-> (exists d t, cs = d :: t /\ digit d) \/ exists d t, cs = 95%Z :: d :: t /\ digit d.
Proof.
  unfold counts. rewrite orb_true_iff, andb_true_iff, (head_spec digit _ cs digitb), (head_spec digit _ (tl cs) digitb). rewrite (head_spec (eq 95%Z) (Z.eqb 95) cs); [|intros c; apply Z.eqb_eq]. split.
  - intros [H | ((c & r & -> & <-) & d & t & E & D)]; [now left|]. right. cbn in E. subst r. now exists d, t.
  - intros [H | (d & t & -> & D)]; [now left | right]. split; [now exists 95%Z, (d :: t) | now exists d, t].
Qed.
Definition amount (t : list Z) : Prop := figures t \/ exists t', t = lit "_" ++ t' /\ figures t'.
Lemma amount_figures t : amount t -> Forall figure t.
Proof.
  assert (F : forall s, figures s -> Forall figure s) by (intros s (d & t0 & -> & D & T); constructor; [now left | assumption]).
  intros [H | (t' & -> & H)]; [now apply F|]. constructor; [now right | now apply F].
Qed.
Lemma counts_run cs : counts cs = true -> amount (char_run von_figure cs) /\ ends figure (drop_run von_figure cs).
Proof.
  intros C. apply counts_spec in C. destruct C as [(d & t & -> & D) | (d & t & -> & D)].
  - destruct (figures_run (d :: t)) as [A B]; [apply digitb; exact D|]. split; [now left | assumption].
  - destruct (figures_run (d :: t)) as [A B]; [apply digitb; exact D|]. assert (E : char_run von_figure (95%Z :: d :: t) = 95%Z :: char_run von_figure (d :: t)) by reflexivity. unfold drop_run in *. rewrite E. split; [|exact B]. right. now exists (char_run von_figure (d :: t)).
Qed.
Lemma counts_read t r : amount t -> ends figure r -> counts (t ++ r) = true /\ char_run von_figure (t ++ r) = t /\ drop_run von_figure (t ++ r) = r.
Proof.
  intros A E. split; [|apply (run_plain figure von_figure); [exact figureb|]; split; [now apply amount_figures | assumption]]. apply counts_spec. destruct A as [(d & t0 & -> & D & _) | (t' & -> & d & t0 & -> & D & _)]; [left; now exists d, (t0 ++ r) | right; now exists d, (t0 ++ r)].
Qed.
Lemma expb c : is_exp c = true <-> (c = 101 \/ c = 69)%Z.
Proof. unfold is_exp. now rewrite orb_true_iff, !Z.eqb_eq. Qed.
Lemma signb c : is_sign c = true <-> (c = 43 \/ c = 45)%Z.
Proof. unfold is_sign. now rewrite orb_true_iff, !Z.eqb_eq. Qed.
Lemma opt_sign r : opt is_sign r = [] \/ opt is_sign r = lit "+" \/ opt is_sign r = lit "-".
Proof. destruct r as [| c r]; [now left|]. cbn [opt]. destruct (is_sign c) eqn:E; [|now left]. apply signb in E. destruct E as [-> | ->]; [right; now left | right; now right]. Qed.
Lemma exponent1_spec cs : let '(e, r) := exponent1 cs in maybe exponent e /\ (e <> [] -> ends figure r) /\ (e = [] -> r = cs).
Proof.
  destruct cs as [| c r]; cbn [exponent1]; [split; [now left|]; split; [contradiction | reflexivity]|]. destruct (is_exp c && counts (after_opt is_sign r)) eqn:H; [|split; [now left|]; split; [contradiction | reflexivity]].
  apply andb_true_iff in H. destruct H as [H1 H2]. apply expb in H1. destruct (counts_run _ H2) as [A B]. split; [|split; [intros _; exact B | discriminate]]. right. exists c, (opt is_sign r), (char_run von_figure (after_opt is_sign r)). split; [reflexivity|]. split; [assumption|]. split; [apply opt_sign | exact A].
Qed.
Lemma amount_sign t r : amount t -> opt is_sign (t ++ r) = [] /\ after_opt is_sign (t ++ r) = t ++ r.
Proof.
  assert (N : forall c x, figure c -> opt is_sign (c :: x) = [] /\ after_opt is_sign (c :: x) = c :: x). { intros c x F. cbn [opt after_opt]. replace (is_sign c) with false; [now split|]. symmetry. apply not_true_iff_false. rewrite signb. unfold figure, digit in F. lia. }
  intros [(d & t0 & -> & D & _) | (t' & -> & _)]; [apply N; now left | apply N; now right].
Qed.
Lemma exponent1_read e r : exponent e -> ends figure r -> exponent1 (e ++ r) = (e, r).
Proof.
  intros (x & g & t & -> & X & G & A) E. change (amount t) in A. cbn [app exponent1]. rewrite (proj2 (expb x) X). cbn [andb]. rewrite <- app_assoc. destruct (counts_read t r A E) as (C & C1 & C2). destruct (amount_sign t r A) as [S1 S2].
  destruct G as [-> | [-> | ->]].
  - cbn [app]. rewrite S1, S2, C, C1, C2. reflexivity.
  - change (lit "+") with [43%Z]. cbn [app opt after_opt]. change (is_sign 43) with true. cbv iota. rewrite C, C1, C2. reflexivity.
  - change (lit "-") with [45%Z]. cbn [app opt after_opt]. change (is_sign 45) with true. cbv iota. rewrite C, C1, C2. reflexivity.
Qed.
Lemma exponent1_none r : ends start r -> exponent1 r = ([], r).
Proof.
  destruct r as [| c r]; [reflexivity|]. intros E. specialize (E c eq_refl). cbn [exponent1]. replace (is_exp c) with false; [reflexivity|]. symmetry. apply not_true_iff_false. rewrite expb. intros H. apply E. left. destruct H as [-> | ->]; [left | right]; lia.
Qed.
Lemma ends_more (P Q : Z -> Prop) r : (forall c, Q c -> P c) -> ends P r -> ends Q r.
Proof. intros H E c X Y. apply (E c X). now apply H. Qed.
Lemma figure_word c : figure c -> word c.
Proof. intros [D | ->]; [now right | left; now right]. Qed.
Lemma ends_word r : ends word r <-> ends start r /\ ends figure r.
Proof.
  split.
  - intros E. split; apply (ends_more word); try assumption; [now left | exact figure_word].
  - intros [A B] c E [H | H]; [now apply (A c) | apply (B c E); now left].
Qed.

Lemma ends_exponent e r : exponent e -> ends figure (e ++ r).
Proof. intros (x & g & t & -> & X & _) c E. cbn in E. injection E as <-. unfold figure, digit. lia. Qed.
Lemma ends_point f r : fraction f -> ends figure (f ++ r).
Proof. intros (t & -> & _) c E. cbn in E. injection E as <-. unfold figure, digit. lia. Qed.
Lemma ends_tail e r : maybe exponent e -> ends figure r -> ends figure (e ++ r).
Proof. intros [-> | E] R; [assumption | now apply ends_exponent]. Qed.

Lemma number1_sound cs s r : number1 cs = Some (s, r) -> number s r.
Proof.
  unfold number1. destruct (begins1 cs) eqn:B; [|discriminate]. unfold begins1 in B. unfold numeral1.
  assert (W : let '(i, c2) := whole1 (after_opt (Z.eqb 45) cs) in (figures i /\ ends figure c2) \/ (i = [] /\ opt (Z.eqb 45) cs = [] /\ c2 = cs /\ exists d t, cs = 46%Z :: d :: t /\ digit d)).
  { unfold whole1. destruct (head ascii_digit_c (after_opt (Z.eqb 45) cs)) eqn:H; [left; now apply figures_run|]. right. destruct cs as [| c cs]; [discriminate|]. change (head ascii_digit_c (c :: cs)) with (ascii_digit_c c) in B. change (head (Z.eqb 45) (c :: cs)) with (45 =? c)%Z in B. change (head (Z.eqb 46) (c :: cs)) with (46 =? c)%Z in B.
    cbn [after_opt opt tl] in *. destruct (Z.eqb_spec 45 c) as [<- | N]; [change (ascii_digit_c 45) with false in B; cbn [orb andb] in B; congruence|]. change (head ascii_digit_c (c :: cs)) with (ascii_digit_c c) in H. rewrite H in B. cbn [orb] in B. apply andb_true_iff in B. destruct B as [B1 B2]. apply Z.eqb_eq in B1. subst c.
    split; [reflexivity|]. split; [reflexivity|]. split; [reflexivity|]. apply (head_spec digit _ _ digitb) in B2. destruct B2 as (d & t & -> & D). now exists d, t. }
  destruct (whole1 _) as [i c2]. pose proof (fraction1_spec c2) as Ff. destruct (fraction1 c2) as [f c3] eqn:Ef. pose proof (exponent1_spec c3) as Fe. pose proof (exponent1_app c3) as Ae. destruct (exponent1 c3) as [e c4]. cbn [fst snd] in Ae. destruct (head von_start c4) eqn:Hs; [discriminate|]. intros X. injection X as <- <-.
  apply (head_ends start _ _ startb) in Hs. destruct Ff as (Mf & Ef1 & Ef2), Fe as (Me & Ee1 & Ee2).
  destruct W as [[Fi Ei] | (-> & -> & -> & d & t & -> & D)].
  - exists i, f, e. split; [|split].
    + apply NuWhole; try assumption. destruct cs as [| c cs]; [now left|]. cbn [opt]. destruct (Z.eqb_spec 45 c) as [<- |]; [now right | now left].
    + apply ends_word. split; [assumption|]. destruct e as [| x e]; [|apply Ee1; discriminate]. rewrite (Ee2 eq_refl). destruct f as [| y f]; [now rewrite (proj1 (Ef2 eq_refl)) | apply Ef1; discriminate].
    + intros -> -> x y E. rewrite (Ee2 eq_refl) in E. destruct (Ef2 eq_refl) as [-> N]. now apply (N x y).
  - assert (f = 46%Z :: char_run von_figure (d :: t)).
    { cbn [fraction1] in Ef. change (46 =? 46)%Z with true in Ef. pose proof (proj1 (drop_under [] d t (Forall_nil _) D)) as U. cbn [app] in U. rewrite U in Ef. change (head ascii_digit_c (d :: t)) with (ascii_digit_c d) in Ef. rewrite (proj2 (digitb d) D) in Ef. now injection Ef. }
    destruct (figures_run (d :: t)) as [Fr Er]; [now apply digitb|]. exists [], f, e. split; [|split].
    + subst f. apply (NuPoint (char_run von_figure (d :: t)) e Fr Me).
    + apply ends_word. split; [assumption|]. destruct e as [| x e]; [|apply Ee1; discriminate]. rewrite (Ee2 eq_refl). apply Ef1. subst f. discriminate.
    + intros -> . discriminate.
Qed.
Lemma number1_complete s r : number s r -> number1 (s ++ r) = Some (s, r).
Proof.
  intros (i & f & e & N & E & L). pose proof (proj1 (ends_word r) E) as [Es Ef]. unfold number1.
  assert (Tail : forall c2, c2 = f ++ e ++ r -> maybe fraction f -> maybe exponent e -> fraction1 c2 = (f, e ++ r) /\ exponent1 (e ++ r) = (e, r)).
  { intros c2 -> Mf Me. split.
    - destruct Mf as [-> | Ff]; [|apply fraction1_read; [assumption | now apply ends_tail]]. apply fraction1_none. destruct Me as [-> | Fe]; [exact (L eq_refl eq_refl)|]. intros x y X (t & -> & _). destruct Fe as (c & g & t' & -> & C & _). cbn in X. injection X as X _. lia.
    - destruct Me as [-> | Fe]; [now apply exponent1_none | now apply exponent1_read]. }
  assert (H45 : head von_start r = false) by (apply (head_ends start _ _ startb); exact Es). destruct N as [m i f e Hm Hi Hf He | f e Hf He].
  - destruct (Tail (f ++ e ++ r) eq_refl Hf He) as [T1 T2]. assert (Ei : ends figure (f ++ e ++ r)) by (destruct Hf as [-> | Hf]; [exact (ends_tail e r He Ef) | now apply ends_point]). destruct (figures_read i (f ++ e ++ r) Hi Ei) as (H1 & H2 & H3).
    rewrite <- !app_assoc. assert (B : begins1 (m ++ i ++ f ++ e ++ r) = true /\ opt (Z.eqb 45) (m ++ i ++ f ++ e ++ r) = m /\ after_opt (Z.eqb 45) (m ++ i ++ f ++ e ++ r) = i ++ f ++ e ++ r).
    { unfold begins1. destruct Hm as [-> | ->].
      - cbn [app]. rewrite H1. cbn [orb]. split; [reflexivity|]. destruct Hi as (d & t & -> & D & _). cbn [app opt after_opt]. unfold digit in D. destruct (Z.eqb_spec 45 d); [lia | now split].
      - change (lit "-") with [45%Z]. cbn [app tl]. rewrite H1. split; [reflexivity|]. split; reflexivity. }
    destruct B as (-> & B1 & B2). unfold numeral1. rewrite B1, B2. unfold whole1. rewrite H1, H2, H3, T1, T2, H45. reflexivity.
  - assert (Ff : fraction (lit "." ++ f)). { exists f. split; [reflexivity|]. destruct Hf as (d & t & -> & D & T). exists [], d, t. split; [reflexivity|]. split; [constructor|]. now split. }
    destruct (Tail ((lit "." ++ f) ++ e ++ r) eq_refl ltac:(now right) He) as [T1 T2]. replace ((lit "." ++ f ++ e) ++ r) with ((lit "." ++ f) ++ e ++ r) by now rewrite <- !app_assoc.
    assert (B : begins1 ((lit "." ++ f) ++ e ++ r) = true). { destruct Hf as (d & t & -> & D & _). apply digitb in D. unfold begins1. change (lit ".") with [46%Z]. cbn [app tl]. change (head ascii_digit_c (d :: t ++ e ++ r)) with (ascii_digit_c d). now rewrite D. }
    rewrite B. unfold numeral1. change (opt (Z.eqb 45) ((lit "." ++ f) ++ e ++ r)) with (@nil Z). change (after_opt (Z.eqb 45) ((lit "." ++ f) ++ e ++ r)) with ((lit "." ++ f) ++ e ++ r). unfold whole1. change (head ascii_digit_c ((lit "." ++ f) ++ e ++ r)) with false. cbv iota. rewrite T1, T2, H45. now rewrite <- app_assoc.
Qed.

(** *** Strings *)
Lemma quote_plain q : quote q -> q <> 92%Z.
Proof. unfold quote. lia. Qed.
Lemma dangling_plain q c b : c <> q -> c <> 92%Z -> dangling q b -> dangling q (c :: b).
Proof. intros N1 N2 [H | (b' & -> & H)]; [left; now constructor; [| congruence |] | right; exists (c :: b'); split; [reflexivity|]; now constructor; [| congruence |]]. Qed.
Lemma dangling_pair q c b : dangling q b -> dangling q (92%Z :: c :: b).
Proof. intros [H | (b' & -> & H)]; [left; now constructor | right; exists (92%Z :: c :: b'); split; [reflexivity|]; now constructor]. Qed.
Lemma escaped1_spec q : forall cs e, let '(ok, b, t) := escaped1 q e cs in
  if ok then (if e then exists x body, b = x :: body ++ [q] /\ literal_body q (Some 92%Z) body else exists body, b = body ++ [q] /\ literal_body q (Some 92%Z) body)
  else t = [] /\ if e then b = [] \/ exists x b', b = x :: b' /\ dangling q b' else dangling q b.
Proof.
  induction cs as [| c r IH]; intros e; cbn [escaped1]; [split; [reflexivity|]; destruct e; [now left | left; constructor]|]. destruct e; cbn [negb andb].
  - specialize (IH false). destruct (escaped1 q false r) as [[ok b] t]. destruct ok; [destruct IH as (body & -> & H); now exists c, body | destruct IH as [-> H]; split; [reflexivity | right; now exists c, b]].
  - destruct (Z.eqb_spec c q) as [-> | N]; [exists []; split; [reflexivity | constructor]|]. destruct (Z.eqb_spec c 92) as [-> | N'].
    + specialize (IH true). destruct (escaped1 q true r) as [[ok b] t]. destruct ok.
      * destruct IH as (x & body & -> & H). exists (92%Z :: x :: body). split; [reflexivity | now constructor].
      * destruct IH as [-> [-> | (x & b' & -> & H)]]; (split; [reflexivity|]); [right; exists []; split; [reflexivity | constructor] | now apply dangling_pair].
    + specialize (IH false). destruct (escaped1 q false r) as [[ok b] t]. destruct ok; [|destruct IH as [-> IH]; split; [reflexivity | now apply dangling_plain]]. destruct IH as (body & -> & H). exists (c :: body). split; [reflexivity|]. constructor; [assumption | congruence | assumption].
Qed.
Lemma escaped1_closed q r b : q <> 92%Z -> literal_body q (Some 92%Z) b -> escaped1 q false (b ++ [q] ++ r) = (true, b ++ [q], r).
Proof.
  intros Q. induction 1 as [| c cs N1 N2 _ IH | x c cs E _ IH]; cbn [app escaped1 negb andb].
  - now rewrite Z.eqb_refl.
  - replace (c =? q)%Z with false by (symmetry; now apply Z.eqb_neq). replace (c =? 92)%Z with false by (symmetry; apply Z.eqb_neq; congruence). cbn [app] in IH. now rewrite IH.
  - injection E as <-. replace (92 =? q)%Z with false by (symmetry; apply Z.eqb_neq; congruence). change (92 =? 92)%Z with true. cbn [negb andb app] in *. now rewrite IH.
Qed.
Lemma escaped1_body q b : q <> 92%Z -> literal_body q (Some 92%Z) b -> forall r, escaped1 q false (b ++ r) = let '(ok, s, t) := escaped1 q false r in (ok, b ++ s, t).
Proof.
  intros Q. induction 1 as [| c cs N1 N2 _ IH | x c cs E _ IH]; intros r; cbn [app escaped1 negb andb].
  - now destruct (escaped1 q false r) as [[ok s] t].
  - replace (c =? q)%Z with false by (symmetry; now apply Z.eqb_neq). replace (c =? 92)%Z with false by (symmetry; apply Z.eqb_neq; congruence). rewrite IH. now destruct (escaped1 q false r) as [[ok s] t].
  - injection E as <-. replace (92 =? q)%Z with false by (symmetry; apply Z.eqb_neq; congruence). change (92 =? 92)%Z with true. cbn [negb andb]. rewrite IH. now destruct (escaped1 q false r) as [[ok s] t].
Qed.
Lemma escaped1_open q b : q <> 92%Z -> dangling q b -> escaped1 q false b = (false, b, []).
Proof.
  intros Q [H | (b' & -> & H)]; [rewrite <- (app_nil_r b) at 1|]; rewrite (escaped1_body q _ Q H); cbn [escaped1 negb andb]; [now rewrite app_nil_r|].
  replace (92 =? q)%Z with false by (symmetry; apply Z.eqb_neq; congruence). reflexivity.
Qed.
Lemma body_ends q b : q <> 92%Z -> literal_body q (Some 92%Z) b -> ends (eq q) b.
Proof. intros Q H c E. destruct H as [| x cs N1 N2 _ | x c' cs E' _]; [discriminate | injection E as <-; congruence | injection E as <-; injection E' as <-; congruence]. Qed.
Lemma dangling_ends q b : q <> 92%Z -> dangling q b -> ends (eq q) b.
Proof.
  intros Q [H | (b' & -> & H)]; [now apply body_ends|]. destruct b' as [| x b']; [intros c E; injection E as <-; congruence|]. intros c E. apply (body_ends q _ Q H c). exact E.
Qed.

Lemma raw1_spec cs : raw1 cs = true <-> opens_raw cs.
Proof.
  unfold raw1, opens_raw. rewrite andb_true_iff, (head_spec quote _ _ quoteb). split.
  - intros [P (q & x & E & Q)]. apply XmlLexProofs.prefixb_skip in P. change (length (lit "raw")) with 3 in P. rewrite E in P. now exists q, x.
  - intros (q & x & Q & ->). split; [reflexivity|]. now exists q, x.
Qed.
Lemma raw1_read p q x : raw p -> quote q -> raw1 (p ++ q :: x) = match p with [] => false | _ => true end /\ (if raw1 (p ++ q :: x) then skipn 3 (p ++ q :: x) else p ++ q :: x) = q :: x /\ (if raw1 (p ++ q :: x) then lit "raw" else []) = p.
Proof.
  intros R Q. destruct R as [-> | ->].
  - assert (H : raw1 ([] ++ q :: x) = false). { unfold raw1. change (prefixb (lit "raw") ([] ++ q :: x)) with ((114 =? q)%Z && prefixb (lit "aw") x). destruct (Z.eqb_spec 114 q); [unfold quote in Q; lia | reflexivity]. }
    rewrite H. now split.
  - assert (H : raw1 (lit "raw" ++ q :: x) = true) by (apply raw1_spec; now exists q, x). rewrite H. now split.
Qed.
Definition closing (p : list Z) (q : Z) (n : nat) (rest : list Z) : bool * list Z * list Z :=
  if match p with [] => true | _ => false end && (n =? 1) then escaped1 q false rest else until (repeat q n) rest.
Lemma string1_read p q n rest : raw p -> quote q -> n <> 0 -> ends (eq q) rest ->
  string1 (p ++ repeat q n ++ rest) = Some (if n =? 2 then (NString, p ++ repeat q n, rest) else let '(b, s, t) := closing p q n rest in (if b then NString else NError, p ++ repeat q n ++ s, t)).
Proof.
  intros R Q N E. destruct n as [| n]; [contradiction|]. cbn [repeat app]. destruct (raw1_read p q (repeat q n ++ rest) R Q) as (R1 & R2 & R3). unfold string1. rewrite R2, R3, R1. rewrite (proj2 (quoteb q) Q).
  assert (G : char_run (Z.eqb q) (repeat q (S n) ++ rest) = repeat q (S n) /\ drop_run (Z.eqb q) (repeat q (S n) ++ rest) = rest).
  { apply (run_plain (eq q)); [intros c; apply Z.eqb_eq|]. split; [|assumption]. apply Forall_forall. intros c I. apply repeat_spec in I. now symmetry. }
  cbn [repeat app] in G. destruct G as [-> ->]. change (q :: repeat q n) with (repeat q (S n)). rewrite repeat_length. destruct (S n =? 2); [reflexivity|]. unfold closing. destruct p as [| p0 p]; cbn [negb]; destruct (_ && (S n =? 1)); [destruct (escaped1 q false rest) as [[b s] t] | destruct (until (repeat q (S n)) rest) as [[b s] t] | |]; try reflexivity.
  - destruct (escaped1 q false rest) as [[b s] t]. reflexivity.
  - destruct (until (repeat q (S n)) rest) as [[b s] t]. reflexivity.
Qed.
Lemma string1_inv cs x : string1 cs = Some x -> exists p q n rest, raw p /\ quote q /\ n <> 0 /\ ends (eq q) rest /\ cs = p ++ repeat q n ++ rest.
Proof.
  unfold string1. assert (W : exists p c1, raw p /\ cs = p ++ c1 /\ (if raw1 cs then skipn 3 cs else cs) = c1).
  { destruct (raw1 cs) eqn:R; [|exists [], cs; split; [now left | now split]]. apply andb_true_iff in R. destruct R as [R _]. apply XmlLexProofs.prefixb_skip in R. exists (lit "raw"), (skipn 3 cs). split; [now right|]. now split. }
  destruct W as (p & c1 & R & E & ->). destruct c1 as [| q r]; [discriminate|]. destruct (von_quote q) eqn:Q; [|discriminate]. intros _. apply quoteb in Q. exists p, q, (length (char_run (Z.eqb q) (q :: r))), (drop_run (Z.eqb q) (q :: r)). rewrite <- run_repeat, run_drop.
  split; [assumption|]. split; [assumption|]. split; [cbn [char_run]; rewrite Z.eqb_refl; discriminate|]. split; [|assumption]. apply (run_spec (eq q)). intros c. apply Z.eqb_eq.
Qed.
Lemma string1_sound cs k s t : string1 cs = Some (k, s, t) -> s ++ t = cs /\ s <> [] /\ von_piece (Some k) s t.
Proof.
  intros H. destruct (string1_inv _ _ H) as (p & q & n & rest & R & Q & N & E & ->). rewrite string1_read in H by assumption. injection H as H.
  assert (Ne : p ++ repeat q n <> []) by (destruct n; [contradiction|]; intros X; apply app_eq_nil in X; now destruct X).
  destruct (Nat.eqb_spec n 2) as [-> | N2].
  - injection H as <- <- <-. split; [now rewrite <- app_assoc|]. split; [assumption|]. now apply PEmpty.
  - unfold closing in H. destruct (match p with [] => true | _ => false end && (n =? 1)) eqn:B.
    + apply andb_true_iff in B. destruct B as [B1 B2]. destruct p; [|discriminate]. apply Nat.eqb_eq in B2. subst n. cbn [repeat app] in *. pose proof (escaped1_spec q rest false) as Sp. pose proof (escaped1_app q rest false) as A. destruct (escaped1 q false rest) as [[b x] y]. injection H as <- <- <-.
      split; [cbn; now rewrite A|]. split; [discriminate|]. destruct b.
      * destruct Sp as (body & -> & L). destruct body as [| c body]; [exfalso; apply (E q); [now rewrite <- A | reflexivity]|]. apply PEscaped; [assumption | discriminate | assumption].
      * destruct Sp as [-> D]. now apply PEscapedEndless.
    + assert (Es : ~ escapes p n) by (intros [-> ->]; discriminate B). pose proof (XmlLexProofs.until_spec (repeat q n) rest) as Sp. pose proof (XmlLexProofs.until_app (repeat q n) rest) as A. destruct (until (repeat q n) rest) as [[b x] y]. injection H as <- <- <-.
      specialize (Sp ltac:(destruct n; [contradiction | discriminate])). split; [now rewrite <- !app_assoc, A|]. split; [rewrite app_assoc; intros X; apply app_eq_nil in X; now destruct X|]. destruct b.
      * pose proof Sp as Cl. destruct Sp as [(b0 & ->) _]. destruct b0 as [| c b0].
        { exfalso. apply (E q); [|reflexivity]. rewrite <- A. destruct n; [contradiction | reflexivity]. }
        apply PString; try assumption; [discriminate|]. intros d Ed. apply (E d). rewrite <- A. exact Ed.
      * destruct Sp as [W ->]. apply PEndless; try assumption. rewrite app_nil_r in A. now subst x.
Qed.

(** *** Words and marks *)
Lemma str_eqb_spec a b : reflect (a = b) (str_eqb a b).
Proof.
  revert b. induction a as [| x a IH]; intros [| y b]; cbn [str_eqb]; try (now constructor). destruct (Z.eqb_spec x y) as [-> | N]; cbn [andb]; [|constructor; congruence]. destruct (IH b) as [-> | N]; constructor; congruence.
Qed.
Lemma kind1_spec s : word_kind s (kind1 s).
Proof.
  unfold kind1, word_kind. cbn [existsb]. destruct (str_eqb_spec s (lit "true")) as [-> | N1]; [left; split; [now left | reflexivity]|]. destruct (str_eqb_spec s (lit "false")) as [-> | N2]; [left; split; [now right | reflexivity]|]. cbn [orb]. destruct (str_eqb_spec s (lit "null")) as [-> | N3]; [right; left; now split|]. right. right. now split.
Qed.
Lemma word_kind_unique s k : word_kind s k -> kind1 s = k.
Proof.
  intros [[[-> | ->] ->] | [[-> ->] | [(N1 & N2 & N3) ->]]]; try reflexivity. unfold kind1. cbn [existsb]. destruct (str_eqb_spec s (lit "true")); [contradiction|]. destruct (str_eqb_spec s (lit "false")); [contradiction|]. cbn [orb]. now destruct (str_eqb_spec s (lit "null")).
Qed.
Lemma mark_spec c k : von_mark c = Some k <-> In ([c], k) marks.
Proof.
  split.
  - unfold von_mark, marks. intros H. repeat (match type of H with context [(c =? ?x)%Z] => destruct (Z.eqb_spec c x) as [-> |]; [injection H as <-; cbn; tauto|] end). discriminate.
  - intros I. cbn in I. decompose [or] I; match goal with H : (_, _) = _ |- _ => injection H as <- <- | H : False |- _ => destruct H end; reflexivity.
Qed.

Lemma von1_piece cs : cs <> [] -> let '(k, s, t) := von1 cs in s ++ t = cs /\ s <> [] /\ von_piece (Some k) s t.
Proof.
  intros Ne. destruct cs as [| c r]; [contradiction|]. unfold von1. destruct (von_blank c) eqn:B1.
  { split; [apply run_drop|]. split; [cbn [char_run]; now rewrite B1|]. apply PBlank. now apply run_spec, blankb. }
  destruct (Z.eqb_spec c 10) as [-> | B2]; [split; [reflexivity|]; split; [discriminate | constructor]|]. destruct (Z.eqb_spec c 13) as [-> | B3].
  { destruct (head (Z.eqb 10) r) eqn:H.
    - apply head_cons in H. rewrite H. split; [reflexivity|]. split; [discriminate | constructor].
    - split; [reflexivity|]. split; [discriminate|]. apply PReturn. apply (head_ends _ (Z.eqb 10)); [intros d; apply Z.eqb_eq | assumption]. }
  destruct (Z.eqb_spec c 35) as [-> | B4].
  { split; [cbn; now rewrite run_drop|]. split; [discriminate|]. apply (PComment (char_run in_line r)). now apply run_spec, lineb. }
  destruct (von_start c && negb (raw1 (c :: r))) eqn:B5.
  { apply andb_true_iff in B5. destruct B5 as [B5 B6]. split; [apply run_drop|]. assert (W : von_word c = true) by (apply wordb; left; now apply startb). cbn [char_run]. unfold drop_run. cbn [char_run]. rewrite W. cbn [length skipn]. fold (drop_run von_word r). split; [discriminate|].
    apply PWord; [now apply startb | apply run_spec; exact wordb | | apply kind1_spec]. rewrite run_drop, <- raw1_spec. now rewrite negb_true_iff in B6; rewrite B6. }
  destruct (number1 (c :: r)) as [[s t]|] eqn:Nm.
  { destruct (number1_app _ _ _ Nm) as [A N]. split; [assumption|]. split; [assumption|]. apply PNumber. now apply (number1_sound (c :: r)). }
  destruct (string1 (c :: r)) as [[[k s] t]|] eqn:St; [now apply string1_sound|]. destruct (von_mark c) as [k|] eqn:M.
  { split; [reflexivity|]. split; [discriminate|]. apply PMark. now apply mark_spec. }
  assert (Nq : ~ quote c). { intros Q. assert (X : string1 ([] ++ repeat c (length (char_run (Z.eqb c) (c :: r))) ++ drop_run (Z.eqb c) (c :: r)) <> None) by (rewrite string1_read; [discriminate | now left | assumption | cbn [char_run]; rewrite Z.eqb_refl; discriminate |]; apply (run_spec (eq c)); intros d; apply Z.eqb_eq).
    rewrite <- run_repeat in X. cbn [app] in X. now rewrite run_drop in X. }
  split; [reflexivity|]. split; [discriminate|]. apply POther; [now rewrite <- blankb, B1 | unfold eol; tauto | assumption | | assumption | | ].
  - intros Sc. apply startb in Sc. rewrite Sc in B5. cbn [andb] in B5. apply negb_false_iff in B5. apply raw1_spec in B5. destruct B5 as (q & x & Q & E). rewrite E in St.
    assert (X : string1 (lit "raw" ++ repeat q (length (char_run (Z.eqb q) (q :: x))) ++ drop_run (Z.eqb q) (q :: x)) <> None) by (rewrite string1_read; [discriminate | now right | assumption | cbn [char_run]; rewrite Z.eqb_refl; discriminate |]; apply (run_spec (eq q)); intros d; apply Z.eqb_eq).
    rewrite <- run_repeat, run_drop in X. contradiction.
  - intros s k I <-. apply mark_spec in I. congruence.
  - intros s x E Hn. apply number1_complete in Hn. rewrite <- E, Nm in Hn. discriminate.
Qed.

Lemma von1_later c r : ~ blank c -> ~ eol c -> c <> 35%Z -> (start c -> opens_raw (c :: r)) ->
  von1 (c :: r) = match number1 (c :: r) with Some (s, t) => (NNumber, s, t) | None => match string1 (c :: r) with Some x => x | None => match von_mark c with Some k => (k, [c], r) | None => (NError, [c], r) end end end.
Proof.
  intros B E N W. unfold von1. rewrite <- blankb, not_true_iff_false in B. rewrite B. unfold eol in E. destruct (Z.eqb_spec c 10); [tauto|]. destruct (Z.eqb_spec c 13); [tauto|]. destruct (Z.eqb_spec c 35); [contradiction|].
  destruct (von_start c) eqn:Sc; [|reflexivity]. apply startb, W, raw1_spec in Sc. now rewrite Sc.
Qed.
Lemma number1_not c r : ~ digit c -> c <> 45%Z -> c <> 46%Z -> number1 (c :: r) = None.
Proof.
  intros D N1 N2. unfold number1, begins1. change (head ascii_digit_c (c :: r)) with (ascii_digit_c c). change (head (Z.eqb 45) (c :: r)) with (45 =? c)%Z. change (head (Z.eqb 46) (c :: r)) with (46 =? c)%Z. rewrite <- digitb, not_true_iff_false in D. rewrite D. destruct (Z.eqb_spec 45 c); [congruence|]. destruct (Z.eqb_spec 46 c); [congruence | reflexivity].
Qed.
Lemma von1_string p q n rest : raw p -> quote q -> n <> 0 -> ends (eq q) rest ->
  von1 (p ++ repeat q n ++ rest) = if n =? 2 then (NString, p ++ repeat q n, rest) else let '(b, s, t) := closing p q n rest in (if b then NString else NError, p ++ repeat q n ++ s, t).
Proof.
  intros R Q N E. pose proof (string1_read p q n rest R Q N E) as St. destruct n as [| n]; [contradiction|]. destruct R as [-> | ->].
  - cbn [repeat app] in *. rewrite von1_later, number1_not; [now rewrite St | ..]; unfold quote, blank, eol, start, letter, digit in *; lia.
  - change (lit "raw") with [114; 97; 119]%Z in *. cbn [app] in *. rewrite von1_later, number1_not; [now rewrite St | ..]; unfold blank, eol, digit; try lia. intros _. now exists q, (repeat q n ++ rest).
Qed.
Lemma ends_app (P : Z -> Prop) b r : b <> [] -> ends P b -> ends P (b ++ r).
Proof. intros N E. destruct b; [contradiction|]. exact E. Qed.
Lemma number_head s r : number s r -> exists c x, s = c :: x /\ (digit c \/ c = 45%Z \/ c = 46%Z).
Proof.
  intros (i & f & e & N & _). destruct N as [m i f e Hm (d & t & -> & D & _) _ _ | f e _ _]; [|eexists _, _; split; [reflexivity|]; tauto]. destruct Hm as [-> | ->]; (eexists _, _; split; [reflexivity|]; tauto).
Qed.
Lemma piece_von1 k s r : von_piece k s r -> s <> [] -> exists k0, k = Some k0 /\ von1 (s ++ r) = (k0, s, r).
Proof.
  intros H N. destruct H as [s r R | r | r E | r | s r R | c s r k Sc R Nr K | s r Nm | p q r Rp Q E | p q n b r Rp Q N0 N2 Es Nb Eb En | q b r Q Nb L | p q n b Rp Q N0 N2 Es Eb W | q b Q D | s k r I | c r B1 B2 B3 B4 B5 B6 B7]; (eexists; split; [reflexivity|]).
  - destruct (run_plain blank von_blank s r blankb R) as [E1 E2]. destruct s as [| c s]; [contradiction|]. destruct R as [F _]. inversion F as [| ? ? Hc _]; subst. unfold von1. cbn [app] in *. now rewrite (proj2 (blankb c) Hc), E1, E2.
  - reflexivity.
  - cbn [app]. unfold von1. apply (head_ends _ (Z.eqb 10)) in E; [|intros d; apply Z.eqb_eq]. now rewrite E.
  - reflexivity.
  - destruct (run_plain _ in_line s r lineb R) as [E1 E2]. change (lit "#" ++ s) with (35%Z :: s). cbn [app]. unfold von1. cbn [von_blank Z.eqb Pos.eqb orb]. now rewrite E1, E2.
  - destruct (run_plain word von_word (c :: s) r wordb) as [E1 E2]; [destruct R as [R1 R2]; split; [constructor; [now left | assumption] | assumption]|]. cbn [app] in *. unfold von1. rewrite E1, E2, (proj2 (startb c) Sc). rewrite <- raw1_spec, not_true_iff_false in Nr. rewrite Nr. cbn [negb andb]. rewrite (word_kind_unique _ _ K).
    destruct (von_blank c) eqn:Bc; [apply blankb in Bc; unfold blank, start, letter in *; lia|]. unfold start, letter in Sc. destruct (Z.eqb_spec c 10); [lia|]. destruct (Z.eqb_spec c 13); [lia|]. destruct (Z.eqb_spec c 35); [lia | reflexivity].
  - destruct (number_head s r Nm) as (c & x & -> & Hc). apply number1_complete in Nm. cbn [app] in *. rewrite von1_later, Nm; [reflexivity | ..]; unfold digit, blank, eol, start, letter in *; lia.
  - change [q; q] with (repeat q 2). rewrite <- app_assoc, von1_string by (assumption || lia). reflexivity.
  - replace ((p ++ repeat q n ++ b ++ repeat q n) ++ r) with (p ++ repeat q n ++ (b ++ repeat q n) ++ r) by now rewrite <- !app_assoc. rewrite von1_string; [| assumption | assumption | assumption |]; cycle 1.
    { rewrite <- app_assoc. now apply ends_app. }
    destruct (Nat.eqb_spec n 2); [contradiction|]. unfold closing. replace (match p with [] => true | _ => false end && (n =? 1)) with false; cycle 1.
    { symmetry. apply not_true_iff_false. rewrite andb_true_iff, Nat.eqb_eq. intros [X Y]. apply Es. split; [now destruct p | assumption]. }
    rewrite (XmlLexProofs.until_closed (repeat q n) r (b ++ repeat q n)); [reflexivity | destruct n; [contradiction | discriminate] | exact En].
  - assert (Q' := quote_plain q Q). replace ((q :: b ++ [q]) ++ r) with ([] ++ repeat q 1 ++ b ++ [q] ++ r) by (cbn; now rewrite <- app_assoc). rewrite von1_string; [| now left | assumption | lia | apply ends_app; [assumption | now apply body_ends]]. cbn [Nat.eqb]. unfold closing. cbn [andb Nat.eqb]. rewrite escaped1_closed by assumption. reflexivity.
  - rewrite app_nil_r, von1_string by assumption. destruct (Nat.eqb_spec n 2); [contradiction|]. unfold closing. replace (match p with [] => true | _ => false end && (n =? 1)) with false; cycle 1.
    { symmetry. apply not_true_iff_false. rewrite andb_true_iff, Nat.eqb_eq. intros [X Y]. apply Es. split; [now destruct p | assumption]. }
    now rewrite (XmlLexProofs.until_open (repeat q n) b W).
  - assert (Q' := quote_plain q Q). replace ((q :: b) ++ []) with ([] ++ repeat q 1 ++ b) by (cbn; now rewrite app_nil_r). rewrite von1_string; [| now left | assumption | lia | now apply dangling_ends]. cbn [Nat.eqb]. unfold closing. cbn [andb Nat.eqb]. now rewrite escaped1_open.
  - cbn in I. decompose [or] I; match goal with H : (_, _) = _ |- _ => injection H as <- <- | H : False |- _ => destruct H end; reflexivity.
  - cbn [app]. rewrite von1_later by tauto. destruct (number1 (c :: r)) as [[s t]|] eqn:Nm; [exfalso; destruct (number1_app _ _ _ Nm) as [A _]; apply (B7 s t (eq_sym A)); now apply (number1_sound (c :: r))|].
    destruct (string1 (c :: r)) as [x|] eqn:St.
    { exfalso. destruct (string1_inv _ _ St) as (p & q & n & rest & Rp & Q & Nn & _ & E). destruct n as [| n]; [contradiction|]. destruct Rp as [-> | ->]; cbn in E; injection E as -> _; [contradiction | apply B4; left; left; lia]. }
    destruct (von_mark c) as [k|] eqn:M; [|reflexivity]. apply mark_spec in M. now destruct (B6 [c] k M).
Qed.

(** ** The tokens of a text *)
Lemma von_pieces_unique k s r k' s' r' : s ++ r = s' ++ r' -> s <> [] -> s' <> [] -> von_piece k s r -> von_piece k' s' r' -> k = k' /\ s = s'.
Proof.
  intros E N N' P P'. destruct (piece_von1 _ _ _ P N) as (x & -> & X). destruct (piece_von1 _ _ _ P' N') as (x' & -> & X'). rewrite E in X. rewrite X in X'. injection X' as -> -> _. now split.
Qed.
Lemma von_lex_cut cs : Forall is_scalar cs -> exists ps, cut von_piece cs ps /\ von_lex (encode cs) = Some (spans 0 ps).
Proof.
  intros F. unfold von_lex. set (text := encode cs). assert (Hs : serves (flat_source text) text) by (apply flat_serves; now exists cs).
  assert (R : reads text 0 (length text) cs) by now apply all_reads. destruct (new_view (flat_source text) text Hs cs R) as [V O].
  assert (Hr : forall l c r, view (flat_source text) text l (c :: r) -> exists l' k s r', von_round text l = Some l' /\ c :: r = s ++ r' /\ s <> [] /\ von_piece k s r' /\ stepped (flat_source text) text l l' k r').
  { intros l c r Vl. pose proof (round_view text Hs l c r Vl) as W. pose proof (von1_piece (c :: r) ltac:(discriminate)) as P. destruct (von1 (c :: r)) as [[k s] t]. destruct W as (l' & E & St), P as (A & N & P). exists l', (Some k), s, t. split; [assumption|]. split; [now symmetry|]. split; [assumption|]. now split. }
  destruct (rounds_view (flat_source text) text (von_round text) von_piece Hs Hr (scan_fuel (flat_source text)) cs _ V (view_length no_char no_char (flat_source text) text Hs _ _ V)) as (l' & ps & E & C & T & P).
  exists ps. split; [assumption|]. rewrite E. cbn [option_map]. now rewrite T, O.
Qed.
