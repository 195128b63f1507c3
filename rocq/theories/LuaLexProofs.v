(** The Lua lexer. *)
From Verif Require PyProofs XmlLexProofs VfsProofs.
From Verif Require Import Base Utf8 Utf8Facts ScanSpec CursorModel CursorSpec CursorProofs RopeModel RopeProofs VfsModel LexModel LexSpec LexProofs LexLoopProofs.
From Verif Require Import JsonLangSpec JsonLexProofs LangModel LangSpec LangLexProofs IniModel LuaModel LuaSpec.

(** ** Classes *)
Lemma blankb c : lua_blank c = true <-> blank c.
Proof. unfold lua_blank, blank. now rewrite orb_true_iff, !Z.eqb_eq. Qed.
Lemma eolb c : lua_eol c = true <-> eol c.
Proof. unfold lua_eol, eol. now rewrite orb_true_iff, !Z.eqb_eq. Qed.
Lemma quoteb c : lua_quote c = true <-> quote c.
Proof. unfold lua_quote, quote. now rewrite orb_true_iff, !Z.eqb_eq. Qed.
Lemma digitb c : ascii_digit_c c = true <-> digit c.
Proof. unfold ascii_digit_c, digit. rewrite andb_true_iff, !Z.leb_le. tauto. Qed.
Lemma letterb c : ascii_alpha_c c = true <-> letter c.
Proof. unfold ascii_alpha_c, letter. rewrite orb_true_iff, !andb_true_iff, !Z.leb_le. tauto. Qed.
Lemma startb c : lua_start c = true <-> start c.
Proof. unfold lua_start, start. now rewrite orb_true_iff, letterb, Z.eqb_eq. Qed.
Lemma wordb c : lua_word c = true <-> word c.
Proof. unfold lua_word, word, start. rewrite !orb_true_iff, letterb, digitb, Z.eqb_eq. tauto. Qed.
Definition is_exp (c : Z) : bool := ((c =? 101) || (c =? 69))%Z.
Definition is_sign (c : Z) : bool := ((c =? 43) || (c =? 45))%Z.
Lemma expb c : is_exp c = true <-> exp_mark c.
Proof. unfold is_exp, exp_mark. now rewrite orb_true_iff, !Z.eqb_eq. Qed.
Lemma signb c : is_sign c = true <-> sign c.
Proof. unfold is_sign, sign. now rewrite orb_true_iff, !Z.eqb_eq. Qed.
Definition in_line (c : Z) : bool := negb (lua_eol c).
Lemma lineb c : in_line c = true <-> ~ eol c.
Proof. unfold in_line. now rewrite negb_true_iff, <- not_true_iff_false, eolb. Qed.
Definition no_close (c : Z) : bool := negb (c =? 93)%Z.
Lemma closeb c : no_close c = true <-> c <> 93%Z.
Proof. unfold no_close. now rewrite negb_true_iff, Z.eqb_neq. Qed.
Definition head (p : Z -> bool) (cs : list Z) : bool := lua_opt p (hd_error cs).

(** ** What a round reads *)
Definition long1 (cs : list Z) : list Z * list Z :=
  match drop_run no_close cs with [] => (char_run no_close cs, []) | d :: t => (char_run no_close cs ++ d :: firstn 1 t, skipn 1 t) end.
Fixpoint quoted1 (q : Z) (e : bool) (cs : list Z) : list Z * list Z :=
  match cs with
  | [] => ([], [])
  | c :: r =>
      if e then let '(s, t) := quoted1 q false r in (c :: s, t)
      else if (c =? 92)%Z then let '(s, t) := quoted1 q true r in (c :: s, t)
      else if (c =? q)%Z then ([c], r)
      else if lua_eol c then ([], cs)
      else let '(s, t) := quoted1 q false r in (c :: s, t)
  end.
Definition digits1 (cs : list Z) : list Z * list Z := (char_run ascii_digit_c cs, drop_run ascii_digit_c cs).
Definition exp1 (cs : list Z) : list Z * list Z :=
  match cs with
  | e :: r => if is_exp e then (e :: opt is_sign r ++ fst (digits1 (after_opt is_sign r)), snd (digits1 (after_opt is_sign r))) else ([], cs)
  | [] => ([], [])
  end.
Definition tail1 (cs : list Z) : list Z * list Z := (fst (digits1 cs) ++ fst (exp1 (snd (digits1 cs))), snd (exp1 (snd (digits1 cs)))).
Definition number1 (cs : list Z) : list Z * list Z :=
  if head (Z.eqb 46) (snd (digits1 cs)) then (fst (digits1 cs) ++ 46%Z :: fst (tail1 (tl (snd (digits1 cs)))), snd (tail1 (tl (snd (digits1 cs))))) else tail1 cs.
Definition mark1 (cs : list Z) : option (list Z * nat) := find (fun p => prefixb (fst p) cs) marks.
Definition lua1 (cs : list Z) : nat * list Z * list Z :=
  match cs with
  | [] => (0, [], [])
  | c :: r =>
      if lua_blank c then (UWhitespace, char_run lua_blank cs, drop_run lua_blank cs)
      else if (c =? 10)%Z then (UNewline, [10%Z], r)
      else if (c =? 13)%Z then if head (Z.eqb 10) r then (UNewline, [13; 10]%Z, tl r) else (UNewline, [13%Z], r)
      else if (c =? 45)%Z then
        let r1 := skipn 1 r in
        if head (Z.eqb 91) r1 then
          let r2 := tl r1 in (UComment, 45%Z :: firstn 1 r ++ 91%Z :: firstn 1 r2 ++ fst (long1 (skipn 1 r2)), snd (long1 (skipn 1 r2)))
        else (UComment, 45%Z :: firstn 1 r ++ char_run in_line r1, drop_run in_line r1)
      else if lua_quote c then (UString, c :: fst (quoted1 c false r), snd (quoted1 c false r))
      else if (c =? 91)%Z then (UString, 91%Z :: firstn 1 r ++ fst (long1 (skipn 1 r)), snd (long1 (skipn 1 r)))
      else if ascii_digit_c c then (UNumber, fst (number1 cs), snd (number1 cs))
      else if lua_start c then (lua_word_kind (char_run lua_word cs), char_run lua_word cs, drop_run lua_word cs)
      else match mark1 cs with
      | Some (s, k) => (k, s, skipn (length s) cs)
      | None => (UError, [c], r)
      end
  end.

(** ** The readers cut *)
Lemma first_skip (r : list Z) : firstn 1 r ++ skipn 1 r = r.
Proof. apply firstn_skipn. Qed.
Lemma long1_app cs : fst (long1 cs) ++ snd (long1 cs) = cs.
Proof.
  unfold long1. pose proof (run_drop no_close cs) as D. destruct (drop_run no_close cs) as [| d t]; cbn [fst snd]; [exact D|].
  rewrite <- app_assoc. cbn [app]. now rewrite first_skip.
Qed.
Lemma quoted1_app q cs : forall e, fst (quoted1 q e cs) ++ snd (quoted1 q e cs) = cs.
Proof.
  induction cs as [| c r IH]; intros e; [reflexivity|]. cbn [quoted1].
  assert (G : forall e', fst (let '(s, t) := quoted1 q e' r in (c :: s, t)) ++ snd (let '(s, t) := quoted1 q e' r in (c :: s, t)) = c :: r).
  { intros e'. specialize (IH e'). destruct (quoted1 q e' r) as [s t]. cbn in *. now rewrite IH. }
  destruct e; [apply G|]. destruct (c =? 92)%Z; [apply G|]. destruct (c =? q)%Z; [reflexivity|]. destruct (lua_eol c); [reflexivity | apply G].
Qed.
Lemma digits1_app cs : fst (digits1 cs) ++ snd (digits1 cs) = cs.
Proof. apply run_drop. Qed.
Lemma exp1_app cs : fst (exp1 cs) ++ snd (exp1 cs) = cs.
Proof. destruct cs as [| e r]; [reflexivity|]. cbn [exp1]. destruct (is_exp e); [|reflexivity]. cbn [fst snd app]. now rewrite <- app_assoc, digits1_app, opt_app. Qed.
Lemma tail1_app cs : fst (tail1 cs) ++ snd (tail1 cs) = cs.
Proof. unfold tail1. cbn [fst snd]. now rewrite <- app_assoc, exp1_app, digits1_app. Qed.
Lemma head_cons x cs : head (Z.eqb x) cs = true -> cs = x :: tl cs.
Proof. destruct cs as [| c r]; [discriminate|]. unfold head. cbn. intros E. apply Z.eqb_eq in E. now subst. Qed.
Lemma number1_app cs : fst (number1 cs) ++ snd (number1 cs) = cs.
Proof.
  unfold number1. destruct (head (Z.eqb 46) (snd (digits1 cs))) eqn:H; [|apply tail1_app]. apply head_cons in H. cbn [fst snd].
  rewrite <- app_assoc. cbn [app]. now rewrite tail1_app, <- H, digits1_app.
Qed.
Lemma prefixb_skip e cs : prefixb e cs = true -> cs = e ++ skipn (length e) cs.
Proof. apply XmlLexProofs.prefixb_skip. Qed.
Lemma run_nonempty (p : Z -> bool) c r : p c = true -> char_run p (c :: r) <> [].
Proof. intros H. cbn [char_run]. now rewrite H. Qed.
Lemma marks_nonempty s k : In (s, k) marks -> s <> [].
Proof. intros I. assert (F : forallb (fun p => match fst p with [] => false | _ => true end) marks = true) by reflexivity. rewrite forallb_forall in F. specialize (F _ I). destruct s; [discriminate F | discriminate]. Qed.
Lemma number1_nonempty c r : ascii_digit_c c = true -> fst (number1 (c :: r)) <> [].
Proof.
  intros H. assert (D : fst (digits1 (c :: r)) <> []) by now apply run_nonempty. unfold number1, tail1. destruct (head _ _); cbn [fst]; intros N; apply app_eq_nil in N; now destruct N.
Qed.
Lemma lua1_app c r : let '(_, s, t) := lua1 (c :: r) in s ++ t = c :: r /\ s <> [].
Proof.
  cbn [lua1]. destruct (lua_blank c) eqn:B1. { split; [apply run_drop | now apply run_nonempty]. }
  destruct (Z.eqb_spec c 10) as [-> | ]; [split; [reflexivity | discriminate]|].
  destruct (Z.eqb_spec c 13) as [-> | ]. { destruct (head (Z.eqb 10) r) eqn:H; [|split; [reflexivity | discriminate]]. apply head_cons in H. split; [|discriminate]. cbn. now rewrite <- H. }
  destruct (Z.eqb_spec c 45) as [-> | ].
  { cbv zeta. destruct (head (Z.eqb 91) (skipn 1 r)) eqn:H; (split; [|discriminate]).
    - apply head_cons in H. cbn [app]. rewrite <- app_assoc. cbn [app]. now rewrite <- app_assoc, long1_app, first_skip, <- H, first_skip.
    - cbn [app]. now rewrite <- app_assoc, run_drop, first_skip. }
  destruct (lua_quote c). { split; [|discriminate]. cbn [app]. now rewrite quoted1_app. }
  destruct (Z.eqb_spec c 91) as [-> | ]. { split; [|discriminate]. cbn [app]. now rewrite <- app_assoc, long1_app, first_skip. }
  destruct (ascii_digit_c c) eqn:D. { split; [apply number1_app | now apply number1_nonempty]. }
  destruct (lua_start c) eqn:St. { split; [apply run_drop | apply run_nonempty; apply wordb; left; now apply startb]. }
  destruct (mark1 (c :: r)) as [[s k]|] eqn:F; [|split; [reflexivity | discriminate]].
  apply find_some in F. destruct F as [I P]. cbn [fst] in P. split; [symmetry; now apply prefixb_skip | now apply (marks_nonempty s k)].
Qed.

Section Steps.
  Variable text : str.
  Let src := flat_source text.
  Hypothesis Hs : serves src text.
  Notation view := (view src text).
  Notation stepped := (stepped src text).
  Notation same := (XmlLexProofs.same src text).
  Notation reading := (XmlLexProofs.reading src text).
  Hypothesis Hmild : forall l cs, view l cs -> mild cs.

  Lemma view_slice l l' s r : view l (s ++ r) -> view l' r -> flat_text_in text (lx_pos l) (lx_pos l') = encode s.
  Proof.
    intros V V'. pose proof (view_pos src text l _ V) as P. pose proof (view_pos src text l' _ V') as P'. rewrite encode_app, app_length in P.
    rewrite flat_text_in_spec; [|lia | lia | apply V | apply V']. destruct V as [_ (_ & L & E)]. unfold substr in *. rewrite firstn_all2 in E by (rewrite skipn_length; lia). rewrite E, encode_app.
    replace (lx_pos l' - lx_pos l) with (length (encode s)) by lia. now rewrite firstn_app, firstn_all, Nat.sub_diag, firstn_O, app_nil_r.
  Qed.
  Lemma token_view k l l0 l' r : lx_toks l' = lx_toks l -> lx_pos l0 = lx_pos l -> view l' r -> exists x, lua_token k l0 l' = Some (true, x) /\ stepped l x (Some k) r.
  Proof. intros T O V. eexists. split; [reflexivity|]. split; [exact V|]. cbn [add_token lx_toks]. rewrite T, O. reflexivity. Qed.
  Lemma is_head x cs : is_char x (hd_error cs) = head (Z.eqb x) cs.
  Proof. unfold head. destruct cs; [reflexivity|]. cbn. apply Z.eqb_sym. Qed.
  Lemma current_view l cs : view l cs -> exists l', lx_current src l = (hd_error cs, l') /\ same l l' cs.
  Proof. intros V. destruct (view_current src text Hs l cs V) as (l1 & -> & V1 & O1 & T1). exists l1. split; [reflexivity|]. now split. Qed.
  Lemma over1 l cs x : (0 <= x < 128)%Z -> head (Z.eqb x) cs = true -> view l cs -> view (lx_advance src l 1) (tl cs) /\ lx_toks (lx_advance src l 1) = lx_toks l.
  Proof. intros A H V. apply head_cons in H. rewrite H in V. now apply (view_advance1 src text Hs l x). Qed.
  Lemma over_end l : view l [] -> view (lx_advance src l 1) [] /\ lx_toks (lx_advance src l 1) = lx_toks l.
  Proof.
    intros V. split; [|reflexivity]. pose proof (view_pos src text l [] V) as P. cbn [encode length] in P.
    assert (E : lx_pos (lx_advance src l 1) = lx_pos l). { unfold lx_advance, lx_pos, advance_bytes in *. cbn [lx_cur cu_off]. rewrite (Hlen src text Hs). lia. }
    destruct V as [[Pl B] R]. split; [split|]; [exact Pl | change (is_boundary text (lx_pos (lx_advance src l 1)) = true); now rewrite E | now rewrite E].
  Qed.
  Lemma two_view l c r : In c (lit "-[]") -> view l (c :: r) -> view (lua_two text l) (skipn 1 r) /\ lx_toks (lua_two text l) = lx_toks l.
  Proof.
    intros I V. assert (A : (0 <= c < 128)%Z) by (cbn in I; lia). destruct (view_advance1 src text Hs l c r A V) as (V1 & T1). unfold lua_two. fold src. destruct r as [| d r].
    - destruct (over_end _ V1) as (V2 & T2). split; [exact V2 | congruence].
    - assert (Ad : (0 <= d < 128)%Z). { split; [|exact (Hmild l _ V [] c d r eq_refl I)]. destruct V1 as [_ (Sc & _)]. inversion Sc as [| ? ? Sd _]. unfold is_scalar in Sd. lia. }
      destruct (view_advance1 src text Hs _ d r Ad V1) as (V2 & T2). cbn [skipn]. split; [exact V2 | congruence].
  Qed.

  Definition r_blank (cs : list Z) : option (nat * list Z) := match char_run lua_blank cs with [] => None | _ => Some (UWhitespace, drop_run lua_blank cs) end.
  Lemma whitespace_view cs : reading (lua_whitespace text) cs (r_blank cs).
  Proof.
    intros l V. unfold lua_whitespace, r_blank. destruct (token_if_view src text Hs UWhitespace lua_blank l cs V) as (l' & E & V' & T & O). fold src. rewrite E. exists l'. pose proof (run_drop lua_blank cs) as D. destruct (char_run lua_blank cs); (split; [reflexivity|]).
    - cbn [app] in D. rewrite D in V'. rewrite app_nil_r in T. split; [assumption|]. split; [now apply O | assumption].
    - split; assumption.
  Qed.
  Definition r_line (cs : list Z) : option (nat * list Z) :=
    if head (Z.eqb 10) cs then Some (UNewline, tl cs) else if head (Z.eqb 13) cs then Some (UNewline, if head (Z.eqb 10) (tl cs) then tl (tl cs) else tl cs) else None.
  Lemma newline_view cs : reading (lua_newline text) cs (r_line cs).
  Proof.
    intros l V. unfold lua_newline, lua_peek, r_line. fold src. destruct (current_view l cs V) as (l1 & -> & V1 & O1 & T1). rewrite !is_head. destruct (head (Z.eqb 10) cs) eqn:H10.
    - destruct (over1 l1 cs 10 ltac:(lia) H10 V1) as (V2 & T2). apply (token_view UNewline l l); [congruence | reflexivity | assumption].
    - destruct (head (Z.eqb 13) cs) eqn:H13.
      + destruct (over1 l1 cs 13 ltac:(lia) H13 V1) as (V2 & T2). destruct (current_view _ _ V2) as (l2 & -> & V3 & O3 & T3). rewrite is_head. destruct (head (Z.eqb 10) (tl cs)) eqn:H.
        * destruct (over1 l2 _ 10 ltac:(lia) H V3) as (V4 & T4). apply (token_view UNewline l l); [congruence | reflexivity | assumption].
        * apply (token_view UNewline l l); [congruence | reflexivity | assumption].
      + exists l1. split; [reflexivity|]. now split.
  Qed.
  Lemma long_view : forall fuel cs l, view l cs -> length cs < fuel -> exists l', lua_long text fuel l = Some l' /\ view l' (snd (long1 cs)) /\ lx_toks l' = lx_toks l.
  Proof.
    induction fuel as [| f IH]; intros cs l V L; [lia|]. cbn [lua_long]. fold src. destruct (current_view l cs V) as (l1 & -> & V1 & O1 & T1). destruct cs as [| c r]; cbn [hd_error].
    - exists l1. now split.
    - unfold lua_peek. fold src. destruct (current_view l1 _ V1) as (l2 & -> & V2 & O2 & T2). cbn [hd_error is_char]. unfold long1, drop_run. cbn [char_run]. unfold no_close at 1 3. destruct (Z.eqb_spec c 93) as [-> | N]; cbn [andb negb].
      + destruct (two_view l2 93 r ltac:(cbn; lia) V2) as (V3 & T3). eexists. split; [reflexivity|]. split; [exact V3 | congruence].
      + destruct (view_advance src text Hs l2 c r V2) as (V3 & _ & T3). cbn [length] in L. destruct (IH r _ V3 ltac:(lia)) as (l' & E & V' & T'). exists l'. split; [exact E|]. split; [|congruence].
        cbn [length skipn]. unfold long1, drop_run in V'. now destruct (skipn (length (char_run no_close r)) r).
  Qed.
  Definition r_comment (cs : list Z) : option (nat * list Z) :=
    if head (Z.eqb 45) cs then Some (UComment, let r1 := skipn 1 (tl cs) in if head (Z.eqb 91) r1 then snd (long1 (skipn 1 (tl r1))) else drop_run in_line r1) else None.
  Lemma comment_view cs : reading (lua_comment text) cs (r_comment cs).
  Proof.
    intros l V. unfold lua_comment, lua_peek, r_comment. fold src. destruct (current_view l cs V) as (l1 & -> & V1 & O1 & T1). rewrite is_head. destruct (head (Z.eqb 45) cs) eqn:H; [|exists l1; split; [reflexivity|]; now split].
    destruct (current_view l1 cs V1) as (l2 & -> & V2 & O2 & T2). rewrite is_head, H. pose proof (head_cons _ _ H) as Hc. rewrite Hc in V2. destruct (two_view l2 45 (tl cs) ltac:(cbn; lia) V2) as (V3 & T3).
    set (r1 := skipn 1 (tl cs)) in *. cbv zeta. destruct (current_view _ _ V3) as (l4 & -> & V4 & O4 & T4). destruct (current_view _ _ V4) as (l5 & -> & V5 & O5 & T5). rewrite !is_head, andb_diag. destruct (head (Z.eqb 91) r1) eqn:H1.
    - pose proof (head_cons _ _ H1) as H1c. rewrite H1c in V5. destruct (two_view l5 91 (tl r1) ltac:(cbn; lia) V5) as (V6 & T6). destruct (long_view (scan_fuel src) _ _ V6) as (l7 & -> & V7 & T7).
      { exact (view_length no_char no_char src text Hs _ _ V6). } apply token_view; [congruence | reflexivity | assumption].
    - unfold lua_line. fold src. destruct (view_take src text Hs _ _ in_line V5) as (l7 & E7 & V7 & O7 & T7). unfold in_line in E7 at 1. rewrite E7. apply token_view; [congruence | reflexivity | assumption].
  Qed.
  Lemma quoted_view q : (0 <= q < 128)%Z -> forall fuel cs e l, view l cs -> length cs < fuel -> exists l', lua_quoted text q fuel e l = Some l' /\ view l' (snd (quoted1 q e cs)) /\ lx_toks l' = lx_toks l.
  Proof.
    intros Q. induction fuel as [| f IH]; intros cs e l V L; [lia|]. cbn [lua_quoted]. fold src. destruct (current_view l cs V) as (l1 & -> & V1 & O1 & T1). destruct cs as [| c r]; cbn [hd_error].
    - exists l1. now split.
    - destruct (view_advance src text Hs l1 c r V1) as (V2 & _ & T2). cbn [length] in L. cbn [quoted1].
      assert (G : forall e', exists l', lua_quoted text q f e' (lx_advance src l1 (char_len c)) = Some l' /\ view l' (snd (let '(s, t) := quoted1 q e' r in (c :: s, t))) /\ lx_toks l' = lx_toks l).
      { intros e'. destruct (IH r e' _ V2 ltac:(lia)) as (l' & E & V' & T'). exists l'. split; [assumption|]. destruct (quoted1 q e' r). split; [assumption | congruence]. }
      destruct e; [apply G|]. destruct (Z.eqb_spec c 92) as [-> | N92]; [exact (G true)|]. destruct (Z.eqb_spec c q) as [-> | Nq].
      + destruct (view_advance1 src text Hs l1 q r Q V1) as (V3 & T3). eexists. split; [reflexivity|]. split; [exact V3 | congruence].
      + destruct (lua_eol c); [exists l1; now split | apply G].
  Qed.
  Definition r_string (cs : list Z) : option (nat * list Z) :=
    match cs with
    | [] => None
    | q :: r => if lua_quote q then Some (UString, snd (quoted1 q false r)) else if (q =? 91)%Z then Some (UString, snd (long1 (skipn 1 r))) else None
    end.
  Lemma string_view cs : reading (lua_string text) cs (r_string cs).
  Proof.
    intros l V. unfold lua_string, lua_peek, r_string. fold src. destruct (current_view l cs V) as (l1 & -> & V1 & O1 & T1). destruct cs as [| q r]; cbn [hd_error]; [exists l1; split; [reflexivity|]; now split|].
    destruct (lua_quote q) eqn:Q.
    - assert (A : (0 <= q < 128)%Z) by (apply quoteb in Q; unfold quote in Q; lia). destruct (view_advance1 src text Hs l1 q r A V1) as (V2 & T2). destruct (quoted_view q A (scan_fuel src) r false _ V2) as (l3 & -> & V3 & T3).
      { exact (view_length no_char no_char src text Hs _ _ V2). } apply token_view; [congruence | reflexivity | assumption].
    - destruct (Z.eqb_spec q 91) as [-> | N]; [|exists l1; split; [reflexivity|]; now split]. destruct (current_view l1 _ V1) as (l2 & -> & V2 & O2 & T2). cbn [hd_error is_char]. change (91 =? 91)%Z with true. cbv iota.
      destruct (two_view l2 91 r ltac:(cbn; lia) V2) as (V3 & T3). destruct (long_view (scan_fuel src) _ _ V3) as (l4 & -> & V4 & T4). { exact (view_length no_char no_char src text Hs _ _ V3). } apply token_view; [congruence | reflexivity | assumption].
  Qed.

  (** *** Numbers *)
  Lemma digit_ascii c : ascii_digit_c c = true -> (0 <= c < 128)%Z.
  Proof. intros H. apply digitb in H. unfold digit in H. lia. Qed.
  Lemma digits_cons c r : ascii_digit_c c = true -> digits1 (c :: r) = (c :: fst (digits1 r), snd (digits1 r)).
  Proof. intros H. unfold digits1, drop_run. cbn [char_run]. now rewrite H. Qed.
  Lemma digits_other c r : ascii_digit_c c = false -> digits1 (c :: r) = ([], c :: r).
  Proof. intros H. unfold digits1, drop_run. cbn [char_run]. now rewrite H. Qed.
  Lemma plain_view : forall fuel d cs l, view l cs -> length cs < fuel -> exists l', lua_number_loop text fuel d true l = Some l' /\ view l' (snd (digits1 cs)) /\ lx_toks l' = lx_toks l.
  Proof.
    induction fuel as [| f IH]; intros d cs l V L; [lia|]. cbn [lua_number_loop]. fold src. destruct (current_view l cs V) as (l1 & -> & V1 & O1 & T1). destruct cs as [| c r]; cbn [hd_error]; [exists l1; now split|].
    destruct (ascii_digit_c c) eqn:D.
    - destruct (view_advance1 src text Hs l1 c r (digit_ascii c D) V1) as (V2 & T2). cbn [length] in L. destruct (IH d r _ V2 ltac:(lia)) as (l' & E & V' & T'). exists l'. split; [exact E|]. rewrite (digits_cons c r D). split; [exact V' | congruence].
    - cbn [negb]. rewrite !andb_false_r. exists l1. rewrite (digits_other c r D). now split.
  Qed.
  Lemma exp_view f d c r l : is_exp c = true -> view l (c :: r) -> length r < f ->
    exists l', (let '(sign, l2) := lx_current src (lx_advance src l 1) in lua_number_loop text f d true (if is_char 43 sign || is_char 45 sign then lx_advance src l2 1 else l2)) = Some l' /\ view l' (snd (exp1 (c :: r))) /\ lx_toks l' = lx_toks l.
  Proof.
    intros X V L. assert (A : (0 <= c < 128)%Z) by (apply expb in X; unfold exp_mark in X; lia). destruct (view_advance1 src text Hs l c r A V) as (V1 & T1). destruct (current_view _ _ V1) as (l2 & -> & V2 & O2 & T2).
    cbn [exp1]. rewrite X. cbn [snd].
    assert (W : exists l4, (if is_char 43 (hd_error r) || is_char 45 (hd_error r) then lx_advance src l2 1 else l2) = l4 /\ view l4 (after_opt is_sign r) /\ lx_toks l4 = lx_toks l2 /\ length (after_opt is_sign r) <= length r).
    { destruct r as [| g r]; [exists l2; now split|]. cbn [hd_error is_char after_opt]. fold (is_sign g). destruct (is_sign g) eqn:Eg; [|exists l2; split; [reflexivity|]; split; [assumption|]; split; [reflexivity | lia]].
      eexists. split; [reflexivity|]. assert (Ag : (0 <= g < 128)%Z) by (apply signb in Eg; unfold sign in Eg; lia). destruct (view_advance1 src text Hs l2 g r Ag V2) as (V3 & T3). split; [exact V3|]. split; [exact T3 | cbn; lia]. }
    destruct W as (l4 & -> & V4 & T4 & L4). destruct (plain_view f d _ l4 V4 ltac:(lia)) as (l' & E & V' & T'). exists l'. split; [exact E|]. split; [exact V' | congruence].
  Qed.
  Lemma tail_view : forall fuel cs l, view l cs -> length cs < fuel -> exists l', lua_number_loop text fuel true false l = Some l' /\ view l' (snd (tail1 cs)) /\ lx_toks l' = lx_toks l.
  Proof.
    induction fuel as [| f IH]; intros cs l V L; [lia|]. cbn [lua_number_loop]. fold src. destruct (current_view l cs V) as (l1 & -> & V1 & O1 & T1). destruct cs as [| c r]; cbn [hd_error]; [exists l1; now split|]. cbn [length] in L.
    destruct (ascii_digit_c c) eqn:D.
    - destruct (view_advance1 src text Hs l1 c r (digit_ascii c D) V1) as (V2 & T2). destruct (IH r _ V2 ltac:(lia)) as (l' & E & V' & T'). exists l'. split; [exact E|]. unfold tail1. rewrite (digits_cons c r D). split; [exact V' | congruence].
    - cbn [negb]. rewrite andb_false_r, andb_true_r. cbn [andb]. fold (is_exp c). unfold tail1. rewrite (digits_other c r D). cbn [fst snd]. destruct (is_exp c) eqn:X.
      + destruct (exp_view f true c r l1 X V1 ltac:(lia)) as (l' & E & V' & T'). exists l'. split; [exact E|]. split; [exact V' | congruence].
      + exists l1. cbn [exp1]. rewrite X. now split.
  Qed.
  Lemma number_loop_view : forall fuel cs l, view l cs -> length cs < fuel -> exists l', lua_number_loop text fuel false false l = Some l' /\ view l' (snd (number1 cs)) /\ lx_toks l' = lx_toks l.
  Proof.
    induction fuel as [| f IH]; intros cs l V L; [lia|]. cbn [lua_number_loop]. fold src. destruct (current_view l cs V) as (l1 & -> & V1 & O1 & T1). destruct cs as [| c r]; cbn [hd_error]; [exists l1; now split|]. cbn [length] in L.
    destruct (ascii_digit_c c) eqn:D.
    - destruct (view_advance1 src text Hs l1 c r (digit_ascii c D) V1) as (V2 & T2). destruct (IH r _ V2 ltac:(lia)) as (l' & E & V' & T'). exists l'. split; [exact E|]. split; [|congruence].
      unfold number1, tail1 in *. rewrite (digits_cons c r D). cbn [fst snd]. destruct (head (Z.eqb 46) (snd (digits1 r))); exact V'.
    - cbn [negb]. rewrite !andb_true_r. fold (is_exp c). unfold number1, tail1. rewrite (digits_other c r D). cbn [fst snd]. unfold head. cbn [hd_error lua_opt tl]. rewrite (Z.eqb_sym 46). destruct (Z.eqb_spec c 46) as [-> | N].
      + destruct (view_advance1 src text Hs l1 46 r ltac:(lia) V1) as (V2 & T2). destruct (tail_view f r _ V2 ltac:(lia)) as (l' & E & V' & T'). exists l'. split; [exact E|]. split; [exact V' | congruence].
      + destruct (is_exp c) eqn:X.
        * destruct (exp_view f false c r l1 X V1 ltac:(lia)) as (l' & E & V' & T'). exists l'. split; [exact E|]. split; [exact V' | congruence].
        * exists l1. cbn [exp1 fst snd]. rewrite X. now split.
  Qed.
  Definition r_number (cs : list Z) : option (nat * list Z) := if head ascii_digit_c cs then Some (UNumber, snd (number1 cs)) else None.
  Lemma number_view cs : reading (lua_number text) cs (r_number cs).
  Proof.
    intros l V. unfold lua_number, lua_peek, r_number. fold src. destruct (current_view l cs V) as (l1 & -> & V1 & O1 & T1). fold (head ascii_digit_c cs). destruct (head ascii_digit_c cs) eqn:H; [|exists l1; split; [reflexivity|]; now split].
    destruct (current_view l1 cs V1) as (l2 & -> & V2 & O2 & T2).
    replace (is_char 48 (hd_error cs) && (is_char 120 (hd_error cs) || is_char 88 (hd_error cs))) with false.
    2: { destruct cs as [| c r]; [reflexivity|]. cbn [hd_error is_char]. destruct (Z.eqb_spec c 48) as [-> |]; reflexivity. }
    destruct (number_loop_view (scan_fuel src) cs l2 V2) as (l3 & -> & V3 & T3). { exact (view_length no_char no_char src text Hs _ _ V2). } apply token_view; [congruence | reflexivity | assumption].
  Qed.

  (** *** Words *)
  Lemma word_ascii s : Forall (fun c => lua_word c = true) s -> encode s = s.
  Proof. intros F. apply ascii_encode. eapply Forall_impl; [|exact F]. intros c H. apply wordb in H. unfold word, start, letter, digit in H. lia. Qed.
  Definition r_word (cs : list Z) : option (nat * list Z) := if head lua_start cs then Some (lua_word_kind (char_run lua_word cs), drop_run lua_word cs) else None.
  Lemma identifier_view cs : reading (lua_identifier text) cs (r_word cs).
  Proof.
    intros l V. unfold lua_identifier, r_word. fold src. destruct (current_view l cs V) as (l1 & -> & V1 & O1 & T1). fold (head lua_start cs). destruct (head lua_start cs); [|exists l1; split; [reflexivity|]; now split].
    destruct (view_take src text Hs _ _ lua_word V1) as (l2 & -> & V2 & O2 & T2). assert (E : flat_text_in text (lx_pos l) (lx_pos l2) = char_run lua_word cs).
    { rewrite (view_slice l l2 (char_run lua_word cs) (drop_run lua_word cs)); [apply word_ascii, char_run_all | now rewrite run_drop | assumption]. }
    rewrite E. apply token_view; [congruence | reflexivity | assumption].
  Qed.

  (** *** Marks *)
  Definition mark2 (cs : list Z) : option (nat * list Z) :=
    match cs with
    | [] => None
    | c :: r =>
        match lua_mark c with
        | None => None
        | Some (kind, longer) =>
            match find (fun p => is_char (fst p) (hd_error r)) longer with
            | None => Some (kind, r)
            | Some (_, kind2) => if (kind2 =? UDotDot) && is_char 46 (hd_error (tl r)) then Some (UDotDotDot, tl (tl r)) else Some (kind2, tl r)
            end
        end
    end.
  Lemma mark_ascii c x : lua_mark c = Some x -> (0 <= c < 128)%Z /\ forall d k, In (d, k) (snd x) -> (0 <= d < 128)%Z.
  Proof.
    unfold lua_mark.
    repeat (match goal with |- context [(c =? ?y)%Z] => destruct (Z.eqb_spec c y) as [-> |]; [intros X; injection X as <-; split; [lia|]; cbn [snd]; intros d k I; cbn [In] in I;
      repeat match goal with H : _ \/ _ |- _ => destruct H | H : (_, _) = (_, _) |- _ => injection H as <- _ | H : False |- _ => destruct H end; lia|] end). discriminate.
  Qed.
  Lemma operator_view cs : reading (lua_operator text) cs (mark2 cs).
  Proof.
    intros l V. unfold lua_operator, lua_peek, mark2. fold src. destruct (current_view l cs V) as (l1 & -> & V1 & O1 & T1). destruct cs as [| c r]; cbn [hd_error]; [exists l1; split; [reflexivity|]; now split|].
    destruct (lua_mark c) as [[kind longer]|] eqn:M; [|exists l1; split; [reflexivity|]; now split]. destruct (mark_ascii c _ M) as [A As]. cbn [snd] in As.
    destruct (view_advance1 src text Hs l1 c r A V1) as (V2 & T2). destruct (current_view _ _ V2) as (l2 & -> & V3 & O3 & T3). destruct (find _ longer) as [[d kind2]|] eqn:F.
    - apply find_some in F. destruct F as [I F]. cbn [fst] in F. rewrite is_head in F. destruct (over1 l2 r d (As d kind2 I) F V3) as (V4 & T4). destruct (current_view _ _ V4) as (l4 & -> & V5 & O5 & T5).
      destruct (kind2 =? UDotDot); cbn [andb]; [|apply token_view; [congruence | reflexivity | assumption]]. destruct (is_char 46 (hd_error (tl r))) eqn:H3; [|apply token_view; [congruence | reflexivity | assumption]].
      rewrite is_head in H3. destruct (over1 l4 _ 46 ltac:(lia) H3 V5) as (V6 & T6). apply token_view; [congruence | reflexivity | assumption].
    - apply token_view; [congruence | reflexivity | assumption].
  Qed.
  Definition marks_read : list (list Z * nat) := Eval vm_compute in marks.
  Lemma mark_same c r : c <> 45%Z -> c <> 91%Z -> mark2 (c :: r) = option_map (fun p => (snd p, skipn (length (fst p)) (c :: r))) (mark1 (c :: r)).
  Proof.
    intros N1 N2. unfold mark1. change marks with marks_read. unfold mark2, lua_mark, marks_read.
    repeat (match goal with |- context [(c =? ?y)%Z] => destruct (Z.eqb_spec c y) as [-> |]; [try contradiction; try reflexivity |] end).
    8: { cbn [find fst prefixb]. rewrite ?(Z.eqb_sym _ c). repeat match goal with H : ?x <> ?y |- context [(?x =? ?y)%Z] => rewrite (proj2 (Z.eqb_neq x y) H) end. reflexivity. }
    all: destruct r as [| d r]; [reflexivity|].
    all: cbn [find fst snd prefixb hd_error is_char tl].
    all: rewrite ?(Z.eqb_sym _ d).
    all: repeat match goal with |- context [(Zpos ?a =? Zpos ?b)%Z] => let v := eval compute in (Zpos a =? Zpos b)%Z in change (Zpos a =? Zpos b)%Z with v end.
    all: cbn [andb].
    all: repeat match goal with |- context [(?x =? ?v)%Z] => is_var x; destruct (x =? v)%Z end; cbn [andb]; try reflexivity.
    destruct r as [| e r]; [reflexivity|]. cbn [hd_error is_char prefixb tl]. rewrite (Z.eqb_sym 46 e). now destruct (e =? 46)%Z.
  Qed.

  (** *** A round *)
  Definition r_all (cs : list Z) : list (option (nat * list Z)) := [r_blank cs; r_line cs; r_comment cs; r_string cs; r_number cs; r_word cs; mark2 cs].
  Lemma all_view cs : reading (try_rules (lua_rules text)) cs (XmlLexProofs.first_of (r_all cs)).
  Proof.
    apply XmlLexProofs.rules_view. repeat (apply Forall2_cons); [apply whitespace_view | apply newline_view | apply comment_view | apply string_view | apply number_view | apply identifier_view | apply operator_view | apply Forall2_nil].
  Qed.
  Lemma round_view l c r : view l (c :: r) -> let '(k, s, t) := lua1 (c :: r) in exists l', lua_round text l = Some l' /\ stepped l l' (Some k) t.
  Proof.
    intros V. unfold lua_round, lua_peek. fold src. destruct (all_view (c :: r) l V) as (l' & -> & C).
    assert (H : XmlLexProofs.first_of (r_all (c :: r)) = (let '(k, s, t) := lua1 (c :: r) in Some (k, t)) \/ XmlLexProofs.first_of (r_all (c :: r)) = None /\ lua1 (c :: r) = (UError, [c], r)).
    { unfold r_all, r_blank, r_line, r_comment, r_string, r_number, r_word. cbn [lua1]. change (head (Z.eqb 10) (c :: r)) with (10 =? c)%Z. change (head (Z.eqb 13) (c :: r)) with (13 =? c)%Z. change (head (Z.eqb 45) (c :: r)) with (45 =? c)%Z.
      change (head ascii_digit_c (c :: r)) with (ascii_digit_c c). change (head lua_start (c :: r)) with (lua_start c). rewrite (Z.eqb_sym 10), (Z.eqb_sym 13), (Z.eqb_sym 45). cbn [tl].
      destruct (lua_blank c) eqn:B. { left. cbn [char_run]. rewrite B. reflexivity. }
      replace (char_run lua_blank (c :: r)) with (@nil Z) by (cbn [char_run]; now rewrite B). cbn [XmlLexProofs.first_of].
      destruct (c =? 10)%Z; [now left|]. destruct (c =? 13)%Z; [left; now destruct (head (Z.eqb 10) r)|]. destruct (Z.eqb_spec c 45) as [-> | N45]; [left; cbv zeta; now destruct (head (Z.eqb 91) (skipn 1 r))|]. cbn [XmlLexProofs.first_of].
      destruct (lua_quote c); [now left|]. destruct (Z.eqb_spec c 91) as [-> | N91]; [now left|]. cbn [XmlLexProofs.first_of]. destruct (ascii_digit_c c); [now left|]. destruct (lua_start c); [now left|]. cbn [XmlLexProofs.first_of].
      rewrite (mark_same c r N45 N91). destruct (mark1 (c :: r)) as [[s k]|]; [now left | now right]. }
    destruct H as [H | [H Hl]]; rewrite H in C; rewrite H; clear H.
    - destruct (lua1 (c :: r)) as [[k s] t]. exists l'. split; [reflexivity | exact C].
    - rewrite Hl. destruct C as (V1 & O1 & T1). destruct (current_view l' _ V1) as (l2 & -> & V2 & O2 & T2). cbn [hd_error]. cbv zeta. destruct (view_advance src text Hs l2 c r V2) as (V3 & O3 & T3). set (l3 := lx_advance src l2 (char_len c)) in *.
      assert (E : advance_if_dead_lock src (lx_pos l) (add_token l3 UError (lx_pos l') (lx_pos l3)) = add_token l3 UError (lx_pos l') (lx_pos l3)).
      { unfold advance_if_dead_lock. change (lx_pos (add_token l3 UError (lx_pos l') (lx_pos l3))) with (lx_pos l3). destruct (Nat.eqb_spec (lx_pos l3) (lx_pos l)) as [E|]; [|reflexivity]. exfalso. rewrite O3 in E. cbn [encode] in E. rewrite app_nil_r, encode_char_length in E. pose proof (char_len_pos c). lia. }
      rewrite E. eexists. split; [reflexivity|]. split; [exact V3|]. cbn [add_token lx_toks]. rewrite T3, T2, T1, O1. reflexivity.
  Qed.
End Steps.

(** ** Pieces of the specification *)
Lemma run_plain P p s r : (forall c, p c = true <-> P c) -> run_of P s r -> char_run p (s ++ r) = s /\ drop_run p (s ++ r) = r.
Proof. exact (XmlLexProofs.run_plain P p s r). Qed.
Lemma run_spec P p cs : (forall c, p c = true <-> P c) -> run_of P (char_run p cs) (drop_run p cs).
Proof. exact (XmlLexProofs.run_spec P p cs). Qed.
Lemma head_ends P p cs : (forall c, p c = true <-> P c) -> head p cs = false <-> ends P cs.
Proof.
  intros H. destruct cs as [| c r]; [split; [intros _ c; discriminate | reflexivity]|]. change (head p (c :: r)) with (p c). rewrite <- not_true_iff_false, H. split; [intros N d E; now injection E as <- | intros N; now apply N].
Qed.
Lemma eqb_spec x c : (x =? c)%Z = true <-> x = c.
Proof. apply Z.eqb_eq. Qed.

Lemma one_spec r : one (firstn 1 r) (skipn 1 r).
Proof. destruct r as [| c r]; [now right | left; now exists c]. Qed.
Lemma one_read x y : one x y -> firstn 1 (x ++ y) = x /\ skipn 1 (x ++ y) = y.
Proof. intros [(c & ->) | [-> ->]]; now split. Qed.
Lemma long1_spec cs : long (fst (long1 cs)) (snd (long1 cs)).
Proof.
  unfold long1. destruct (run_spec _ no_close cs closeb) as [F E]. assert (N : ~ In 93%Z (char_run no_close cs)) by (intros I; rewrite Forall_forall in F; now apply (F _ I)).
  destruct (drop_run no_close cs) as [| d t]; cbn [fst snd]; [now right|]. left. exists (char_run no_close cs), (firstn 1 t). split; [|split; [exact N | apply one_spec]].
  f_equal. f_equal. destruct (Z.eq_dec d 93) as [-> | Nd]; [reflexivity|]. now destruct (E d eq_refl).
Qed.
Lemma no_close_run b r : ~ In 93%Z b -> ends (fun c => c <> 93%Z) r -> char_run no_close (b ++ r) = b /\ drop_run no_close (b ++ r) = r.
Proof. intros N E. apply (run_plain (fun c => c <> 93%Z)); [exact closeb|]. split; [|exact E]. apply Forall_forall. intros c I ->. contradiction. Qed.
Lemma long_read s r : long s r -> long1 (s ++ r) = (s, r).
Proof.
  intros [(b & x & -> & N & O) | [N ->]]; unfold long1.
  - rewrite <- app_assoc. cbn [app]. destruct (no_close_run b (93%Z :: x ++ r) N) as [-> ->]. { intros c E. injection E as <-. congruence. } destruct (one_read x r O) as [-> ->]. reflexivity.
  - destruct (no_close_run s [] N) as [-> ->]; [intros c; discriminate | reflexivity].
Qed.

Lemma quoted1_spec q cs : q <> 92%Z ->
  let good b t := (exists s, b = s ++ [q] /\ inside q s) \/ (inside q b /\ forall c, hd_error t = Some c -> eol c) \/ (exists s, b = s ++ [92%Z] /\ inside q s /\ t = []) in
  good (fst (quoted1 q false cs)) (snd (quoted1 q false cs)) /\
  (cs = [] \/ exists c r, cs = c :: r /\ fst (quoted1 q true cs) = c :: fst (quoted1 q false r) /\ snd (quoted1 q true cs) = snd (quoted1 q false r) /\ good (fst (quoted1 q false r)) (snd (quoted1 q false r))).
Proof.
  intros Nq good. induction cs as [| c r [IH IHt]].
  - split; [|now left]. right. left. split; [constructor | discriminate].
  - split.
    + cbn [quoted1]. destruct (Z.eqb_spec c 92) as [-> | N92].
      * destruct IHt as [-> | (d & r' & -> & E1 & E2 & G)].
        -- right. right. exists []. now repeat split; try constructor.
        -- destruct (quoted1 q true (d :: r')) as [b t]. cbn [fst snd] in *. subst b t. destruct G as [(s & -> & I) | [[I E] | (s & -> & I & E)]].
           ++ left. exists (92%Z :: d :: s). split; [reflexivity | now constructor].
           ++ right. left. split; [now constructor | exact E].
           ++ right. right. exists (92%Z :: d :: s). split; [reflexivity|]. split; [now constructor | exact E].
      * destruct (Z.eqb_spec c q) as [-> | Nc]; [left; exists []; split; [reflexivity | constructor]|]. destruct (lua_eol c) eqn:El.
        -- right. left. cbn [fst snd]. split; [constructor|]. intros d E. injection E as <-. now apply eolb.
        -- assert (Ne : ~ eol c) by (rewrite <- eolb, El; discriminate). destruct (quoted1 q false r) as [b t]. cbn [fst snd] in *. destruct IH as [(s & -> & I) | [[I E] | (s & -> & I & E)]].
           ++ left. exists (c :: s). split; [reflexivity | now constructor].
           ++ right. left. split; [now constructor | exact E].
           ++ right. right. exists (c :: s). split; [reflexivity|]. split; [now constructor | exact E].
    + right. exists c, r. split; [reflexivity|]. cbn [quoted1]. destruct (quoted1 q false r) as [b t]. now repeat split.
Qed.
Lemma inside_read q s r : q <> 92%Z -> inside q s -> quoted1 q false (s ++ r) = (s ++ fst (quoted1 q false r), snd (quoted1 q false r)).
Proof.
  intros Nq. induction 1 as [| c s Nc N92 Ne _ IH | c s _ IH]; cbn [app].
  - now destruct (quoted1 q false r).
  - cbn [quoted1]. destruct (Z.eqb_spec c 92); [contradiction|]. destruct (Z.eqb_spec c q); [contradiction|]. destruct (lua_eol c) eqn:El; [apply eolb in El; contradiction|]. now rewrite IH.
  - cbn [quoted1]. change (92 =? 92)%Z with true. cbv iota. now rewrite IH.
Qed.

(** *** Numbers *)
Lemma digits_spec cs : Forall digit (fst (digits1 cs)) /\ ends digit (snd (digits1 cs)).
Proof. exact (run_spec digit ascii_digit_c cs digitb). Qed.
Lemma digits_read s r : Forall digit s -> ends digit r -> digits1 (s ++ r) = (s, r).
Proof. intros F E. unfold digits1. now destruct (run_plain digit ascii_digit_c s r digitb (conj F E)) as [-> ->]. Qed.
Lemma exp1_spec cs : ends digit cs -> exponent (fst (exp1 cs)) /\ ends digit (snd (exp1 cs)) /\ (fst (exp1 cs) = [] -> snd (exp1 cs) = cs /\ ends exp_mark cs) /\ (forall c, fst (exp1 cs) = [c] -> ends sign (snd (exp1 cs))).
Proof.
  intros E. destruct cs as [| e r]; [split; [now left|]; split; [exact E|]; split; [intros _; split; [reflexivity | intros c; discriminate] | intros c; discriminate]|]. cbn [exp1]. destruct (is_exp e) eqn:X; cbn [fst snd].
  - destruct (digits_spec (after_opt is_sign r)) as [F N]. split; [|split; [exact N|]].
    + right. exists e, (opt is_sign r), (fst (digits1 (after_opt is_sign r))). split; [reflexivity|]. split; [now apply expb|]. split; [|exact F]. destruct (opt_cases is_sign r) as [-> | (c & -> & H)]; [now left | right; exists c; split; [reflexivity | now apply signb]].
    + split; [discriminate|]. intros c Q. injection Q as <- Q. apply app_eq_nil in Q. destruct Q as [Q1 Q2]. pose proof (digits1_app (after_opt is_sign r)) as A. unfold digits1 in *; cbn [fst snd] in *; rewrite Q2 in A. cbn [app] in A. rewrite A. destruct r as [| g r]; [intros c; discriminate|]. cbn [opt after_opt] in *. destruct (is_sign g) eqn:G; [discriminate|].
      intros c K. injection K as <-. rewrite <- signb, G. discriminate.
  - split; [now left|]. split; [exact E|]. split; [|discriminate]. intros _. split; [reflexivity|]. intros c Q. injection Q as <-. rewrite <- expb, X. discriminate.
Qed.
Lemma exp_no_digit c : exp_mark c -> ~ digit c.
Proof. unfold exp_mark, digit. lia. Qed.
Lemma sign_no_digit c : sign c -> ~ digit c.
Proof. unfold sign, digit. lia. Qed.
Lemma exp_read e r : exponent e -> ends digit r -> (e = [] -> ends exp_mark r) -> (forall c, e = [c] -> ends sign r) -> exp1 (e ++ r) = (e, r) /\ ends digit (e ++ r).
Proof.
  intros [-> | (x & g & t & -> & X & G & F)] E N1 N2; cbn [app].
  - split; [|exact E]. destruct r as [| c r]; [reflexivity|]. cbn [exp1]. destruct (is_exp c) eqn:Xc; [|reflexivity]. apply expb in Xc. now destruct (N1 eq_refl c eq_refl).
  - split; [|intros c Q; injection Q as <-; now apply exp_no_digit]. cbn [exp1]. rewrite (proj2 (expb x) X).
    assert (S : opt is_sign ((g ++ t) ++ r) = g /\ after_opt is_sign ((g ++ t) ++ r) = t ++ r).
    { destruct G as [-> | (c & -> & C)]; cbn [app].
      - assert (H : forall c, hd_error (t ++ r) = Some c -> is_sign c = false). { intros c Q. destruct t as [| d t]; cbn [app] in Q; [|injection Q as <-].
          - destruct (is_sign c) eqn:Y; [|reflexivity]. apply signb in Y. now destruct (N2 x eq_refl c Q).
          - destruct (is_sign d) eqn:Y; [|reflexivity]. apply signb in Y. inversion F; subst. now destruct (sign_no_digit d Y). }
        destruct (t ++ r) as [| c y]; [now split|]. cbn [opt after_opt]. rewrite (H c eq_refl). now split.
      - cbn [opt after_opt]. rewrite (proj2 (signb c) C). now split. }
    destruct S as [-> ->]. rewrite (digits_read t r F E). reflexivity.
Qed.
Lemma tail1_spec cs : exists t e, fst (tail1 cs) = t ++ e /\ t = fst (digits1 cs) /\ Forall digit t /\ exponent e /\ ends digit (snd (tail1 cs)) /\
  (e = [] -> snd (tail1 cs) = snd (digits1 cs) /\ ends exp_mark (snd (tail1 cs))) /\ (forall c, e = [c] -> ends sign (snd (tail1 cs))).
Proof.
  unfold tail1. cbn [fst snd]. destruct (digits_spec cs) as [F E]. destruct (exp1_spec _ E) as (X & N & Z0 & Z1). exists (fst (digits1 cs)), (fst (exp1 (snd (digits1 cs)))). split; [reflexivity|]. split; [reflexivity|]. split; [exact F|]. split; [exact X|]. split; [exact N|]. split; [|exact Z1].
  intros Q. destruct (Z0 Q) as [-> M]. now split.
Qed.
Lemma tail_read t e r : Forall digit t -> exponent e -> ends digit r -> (e = [] -> ends exp_mark r) -> (forall c, e = [c] -> ends sign r) -> tail1 (t ++ e ++ r) = (t ++ e, r) /\ digits1 (t ++ e ++ r) = (t, e ++ r).
Proof.
  intros F X E N1 N2. destruct (exp_read e r X E N1 N2) as [R Ed]. unfold tail1. rewrite (digits_read t (e ++ r) F Ed). cbn [fst snd]. rewrite R. now split.
Qed.
Lemma number1_spec c r : digit c -> number (fst (number1 (c :: r))) (snd (number1 (c :: r))).
Proof.
  intros D. set (cs := c :: r). assert (Ni : fst (digits1 cs) <> []) by (apply run_nonempty; now apply digitb). destruct (digits_spec cs) as [F E]. unfold number1. destruct (head (Z.eqb 46) (snd (digits1 cs))) eqn:H; cbn [fst snd].
  - destruct (tail1_spec (tl (snd (digits1 cs)))) as (t & e & Q & _ & Ft & X & Er & Z0 & Z1). exists (fst (digits1 cs)), (46%Z :: t), e. rewrite Q. split; [reflexivity|]. split; [exact Ni|]. split; [exact F|]. split; [right; now exists t|]. split; [exact X|]. split; [exact Er|]. split; [discriminate|]. split; [intros Y; apply (Z0 Y) | exact Z1].
  - destruct (tail1_spec cs) as (t & e & Q & -> & Ft & X & Er & Z0 & Z1). exists (fst (digits1 cs)), [], e. rewrite Q. split; [reflexivity|]. split; [exact Ni|]. split; [exact F|]. split; [now left|]. split; [exact X|]. split; [exact Er|]. split; [|split; [intros Y; apply (Z0 Y) | exact Z1]].
    intros _ Y. destruct (Z0 Y) as [-> _]. now apply (head_ends (eq 46%Z) (Z.eqb 46) _ (eqb_spec 46)).
Qed.
Lemma number_read s r : number s r -> number1 (s ++ r) = (s, r) /\ exists c s', s = c :: s' /\ digit c.
Proof.
  intros (i & f & e & -> & Ni & Fi & Ff & X & E & Np & Ne & Ns). split.
  - unfold number1. destruct Ff as [-> | (t & -> & Ft)].
    + cbn [app]. rewrite <- app_assoc. destruct (tail_read i e r Fi X E Ne Ns) as [T D]. rewrite D. cbn [fst snd]. replace (head (Z.eqb 46) (e ++ r)) with false; [exact T|]. symmetry. apply (head_ends (eq 46%Z) (Z.eqb 46) _ (eqb_spec 46)).
      destruct X as [-> | (x & g & t & -> & X & _)]; [now apply Np|]. intros c Q. injection Q as <-. unfold exp_mark in X. lia.
    + rewrite <- app_assoc. cbn [app]. rewrite (digits_read i (46%Z :: (t ++ e) ++ r) Fi); [|intros c Q; injection Q as <-; unfold digit; lia]. cbn [fst snd]. change (head (Z.eqb 46) (46%Z :: (t ++ e) ++ r)) with true. cbv iota. cbn [tl]. rewrite <- app_assoc.
      destruct (tail_read t e r Ft X E Ne Ns) as [-> _]. reflexivity.
  - destruct i as [| c i]; [contradiction|]. exists c, (i ++ f ++ e). split; [reflexivity|]. now inversion Fi.
Qed.

(** *** Words and marks *)
Lemma word_kind_read s k : word_kind s k -> lua_word_kind s = k.
Proof.
  intros [I | [N ->]]; unfold lua_word_kind.
  - unfold keywords in I. cbn [In] in I. repeat (destruct I as [I | I]; [injection I as <- <-; vm_compute; reflexivity|]). contradiction.
  - destruct (find _ lua_keywords) as [[x k]|] eqn:F; [|reflexivity]. apply find_some in F. destruct F as [I E]. cbn [fst] in E. apply VfsProofs.str_eqb_spec in E. subst x. now destruct (N k).
Qed.
Lemma word_kind_spec s : word_kind s (lua_word_kind s).
Proof.
  unfold lua_word_kind. destruct (find _ lua_keywords) as [[x k]|] eqn:F.
  - apply find_some in F. destruct F as [I E]. cbn [fst snd] in *. apply VfsProofs.str_eqb_spec in E. subst x. now left.
  - right. split; [|reflexivity]. intros k I. pose proof (find_none _ _ F _ I) as E. cbn [fst] in E. rewrite (proj2 (VfsProofs.str_eqb_spec s s) eq_refl) in E. discriminate.
Qed.

Fixpoint falling (l : list (list Z * nat)) : bool :=
  match l with [] => true | p :: r => forallb (fun p' => length (fst p') <=? length (fst p)) r && falling r end.
Lemma find_first (f : list Z * nat -> bool) l p p' : falling l = true -> find f l = Some p -> In p' l -> f p' = true -> length (fst p') <= length (fst p).
Proof.
  induction l as [| x l IH]; cbn [find falling In]; [discriminate|]. intros S F I T. apply andb_true_iff in S. destruct S as [S1 S2]. destruct (f x) eqn:X.
  - injection F as <-. destruct I as [-> | I]; [lia|]. rewrite forallb_forall in S1. now apply Nat.leb_le, S1.
  - destruct I as [-> | I]; [congruence | now apply IH].
Qed.
Lemma marks_falling : falling marks = true.
Proof. vm_compute. reflexivity. Qed.
Lemma marks_one s k k' : In (s, k) marks -> In (s, k') marks -> k = k'.
Proof.
  intros I I'. assert (H : forallb (fun p => forallb (fun p' => implb (str_eqb (fst p) (fst p')) (snd p =? snd p')) marks) marks = true) by (vm_compute; reflexivity).
  rewrite forallb_forall in H. specialize (H _ I). cbv beta in H. rewrite forallb_forall in H. specialize (H _ I'). cbn [fst snd] in H. rewrite (proj2 (VfsProofs.str_eqb_spec s s) eq_refl) in H. now apply Nat.eqb_eq.
Qed.
Lemma marks_start s k c : In (s, k) marks -> hd_error s = Some c -> exists k', In ([c], k') marks.
Proof.
  intros I E. assert (H : forallb (fun p => existsb (fun p' => str_eqb (firstn 1 (fst p)) (fst p')) marks) marks = true) by (vm_compute; reflexivity).
  rewrite forallb_forall in H. specialize (H _ I). apply existsb_exists in H. destruct H as ([x k'] & I' & H). cbn [fst] in H. apply VfsProofs.str_eqb_spec in H. subst x. exists k'. destruct s as [| d s]; [discriminate|]. now injection E as ->.
Qed.
(** what a mark may begin with *)
Lemma marks_head s k : In (s, k) marks -> exists c x, s = c :: x /\ lua_blank c = false /\ (c =? 10)%Z = false /\ (c =? 13)%Z = false /\ (c =? 45)%Z = false /\ lua_quote c = false /\ (c =? 91)%Z = false /\ ascii_digit_c c = false /\ lua_start c = false.
Proof.
  intros I. assert (H : forallb (fun p => match fst p with [] => false | c :: _ => negb (lua_blank c || (c =? 10)%Z || (c =? 13)%Z || (c =? 45)%Z || lua_quote c || (c =? 91)%Z || ascii_digit_c c || lua_start c) end) marks = true) by (vm_compute; reflexivity).
  rewrite forallb_forall in H. specialize (H _ I). cbn [fst] in H. destruct s as [| c s]; [discriminate|]. exists c, s. split; [reflexivity|]. apply negb_true_iff in H. rewrite !orb_false_iff in H. tauto.
Qed.
Lemma mark1_spec cs s k : mark1 cs = Some (s, k) -> In (s, k) marks /\ cs = s ++ skipn (length s) cs /\ forall s' k' x, In (s', k') marks -> cs = s' ++ x -> length s' <= length s.
Proof.
  intros F. destruct (find_some _ _ F) as [I P]. cbn [fst] in P. split; [exact I|]. split; [now apply XmlLexProofs.prefixb_skip|]. intros s' k' x I' E. apply (find_first _ _ (s, k) (s', k') marks_falling F I'). cbn [fst]. apply XmlLexProofs.prefixb_spec. now exists x.
Qed.
Lemma mark_read s k r : In (s, k) marks -> (forall s' k' x, In (s', k') marks -> s ++ r = s' ++ x -> length s' <= length s) -> mark1 (s ++ r) = Some (s, k).
Proof.
  intros I M. destruct (mark1 (s ++ r)) as [[s' k']|] eqn:F.
  - destruct (mark1_spec _ _ _ F) as (I' & E & M'). pose proof (M s' k' _ I' E) as L1. pose proof (M' s k r I eq_refl) as L2. assert (Es : s = s').
    { assert (L : length s = length s') by lia. clear - E L. revert s' E L. induction s as [| x s IH]; intros [| y s'] E L; cbn in L; try discriminate; [reflexivity|]. cbn [app length skipn] in E. injection E as <- E. f_equal. apply (IH s'); [exact E | lia]. }
    subst s'. now rewrite (marks_one s k k' I I').
  - pose proof (find_none _ _ F _ I) as P. cbn [fst] in P. rewrite (proj2 (XmlLexProofs.prefixb_spec s (s ++ r)) (ex_intro _ r eq_refl)) in P. discriminate.
Qed.

Lemma lua1_piece c r : let '(k, s, t) := lua1 (c :: r) in c :: r = s ++ t /\ s <> [] /\ lua_piece (Some k) s t.
Proof.
  pose proof (lua1_app c r) as A. destruct (lua1 (c :: r)) as [[k s] t] eqn:L. destruct A as [A N]. split; [now symmetry|]. split; [exact N|]. clear A N. unfold lua1 in L.
  destruct (lua_blank c) eqn:B1. { injection L as <- <- <-. apply PBlank; [now apply run_nonempty | exact (run_spec blank lua_blank (c :: r) blankb)]. }
  destruct (Z.eqb_spec c 10) as [-> | B2]; [injection L as <- <- <-; constructor|]. destruct (Z.eqb_spec c 13) as [-> | B3].
  { destruct (head (Z.eqb 10) r) eqn:H; injection L as <- <- <-; [constructor|]. apply PReturn. now apply (head_ends (eq 10%Z) (Z.eqb 10) _ (eqb_spec 10)). }
  destruct (Z.eqb_spec c 45) as [-> | B4].
  { pose proof (one_spec r) as O. cbv zeta in L. revert O L. generalize (firstn 1 r) (skipn 1 r). intros x r1 O L. destruct (head (Z.eqb 91) r1) eqn:H.
    - destruct r1 as [| d r2]; [discriminate|]. assert (d = 91%Z) as -> by (change ((91 =? d)%Z = true) in H; lia). cbn [tl] in L. pose proof (one_spec r2) as O2. revert O2 L. generalize (firstn 1 r2) (skipn 1 r2). intros y r3 O2 L. injection L as <- <- <-. apply PLongComment; [|now rewrite long1_app | apply long1_spec]. destruct O as [O | [_ O]]; [now left | discriminate].
    - injection L as <- <- <-. pose proof (run_drop in_line r1) as Rd. apply PComment; [now rewrite Rd | rewrite Rd; now apply (head_ends (eq 91%Z) (Z.eqb 91) _ (eqb_spec 91)) | apply run_spec; exact lineb]. }
  destruct (lua_quote c) eqn:B5.
  { apply quoteb in B5. injection L as <- <- <-. destruct (quoted1_spec c r) as [G _]; [unfold quote in B5; lia|]. destruct G as [(s0 & -> & I) | [[I E] | (s0 & -> & I & ->)]]; [now apply PString | now apply PBroken | now apply PDangling]. }
  destruct (Z.eqb_spec c 91) as [-> | B6]. { injection L as <- <- <-. apply PLongString; [rewrite long1_app; apply one_spec | apply long1_spec]. }
  destruct (ascii_digit_c c) eqn:B7. { injection L as <- <- <-. apply PNumber. apply number1_spec. now apply digitb. }
  destruct (lua_start c) eqn:B8.
  { apply startb in B8. assert (W : lua_word c = true) by (apply wordb; now left). injection L as <- <- <-. unfold drop_run. cbn [char_run]. rewrite W. cbn [length skipn]. fold (drop_run lua_word r). apply PWord; [exact B8 | apply run_spec; exact wordb | apply word_kind_spec]. }
  destruct (mark1 (c :: r)) as [[s0 k0]|] eqn:M; injection L as <- <- <-.
  - destruct (mark1_spec _ _ _ M) as (I & E & X). apply PMark; [exact I|]. rewrite <- E. exact X.
  - apply POther; [now rewrite <- blankb, B1 | unfold eol; tauto | now rewrite <- quoteb, B5 | | exact B4 | exact B6 |].
    + intros [W | W]; [apply startb in W | apply digitb in W]; congruence.
    + intros s0 k0 I E. destruct (marks_start _ _ _ I E) as (k' & I'). pose proof (find_none _ _ M _ I') as P. cbn in P. rewrite Z.eqb_refl in P. discriminate.
Qed.

Lemma quote_rest q : quote q -> lua_blank q = false /\ (q =? 10)%Z = false /\ (q =? 13)%Z = false /\ (q =? 45)%Z = false /\ lua_quote q = true /\ q <> 92%Z.
Proof. intros [-> | ->]; repeat split; lia. Qed.
Lemma lua1_quoted q r : quote q -> lua1 (q :: r) = (UString, q :: fst (quoted1 q false r), snd (quoted1 q false r)).
Proof. intros Q. destruct (quote_rest q Q) as (E1 & E2 & E3 & E4 & E5 & _). unfold lua1. now rewrite E1, E2, E3, E4, E5. Qed.
Lemma eol_plain c : eol c -> lua_eol c = true.
Proof. apply eolb. Qed.
Lemma piece_lua1 k s r : lua_piece k s r -> s <> [] -> exists k0, k = Some k0 /\ lua1 (s ++ r) = (k0, s, r).
Proof.
  intros H N. destruct H as [s r Ns R | r | r E | r | x s r O E R | x y s r O O2 Lg | x s r O Lg | q s r Q I | q s r Q I E | q s Q I | s r Nm | c s r k Sc R K | s k r I X | c r B1 B2 B3 B4 B5 B6 B7]; (eexists; split; [reflexivity|]).
  - destruct (run_plain blank lua_blank s r blankb R) as [E1 E2]. destruct s as [| c s]; [contradiction|]. destruct R as [F _]. inversion F as [| ? ? Hc _]; subst. unfold lua1. cbn [app] in *. now rewrite (proj2 (blankb c) Hc), E1, E2.
  - reflexivity.
  - cbn [app]. unfold lua1. apply (head_ends (eq 10%Z) (Z.eqb 10) _ (eqb_spec 10)) in E. now rewrite E.
  - reflexivity.
  - cbn [app]. rewrite <- app_assoc. destruct (one_read x (s ++ r) O) as [O1 O2]. destruct (run_plain _ in_line s r lineb R) as [E1 E2]. apply (head_ends (eq 91%Z) (Z.eqb 91) _ (eqb_spec 91)) in E. unfold lua1. cbn [lua_blank Z.eqb Pos.eqb orb]. cbv zeta. now rewrite O1, O2, E, E1, E2.
  - destruct O as [(c & ->) | [_ O]]; [|discriminate]. replace ((45%Z :: [c] ++ 91%Z :: y ++ s) ++ r) with (45%Z :: c :: 91%Z :: y ++ s ++ r) by (cbn [app]; now rewrite <- app_assoc). destruct (one_read y (s ++ r) O2) as [O1 O3]. unfold lua1. change (lua_blank 45) with false. cbn [Z.eqb Pos.eqb]. cbv zeta.
    change (skipn 1 (c :: 91%Z :: y ++ s ++ r)) with (91%Z :: y ++ s ++ r). change (firstn 1 (c :: 91%Z :: y ++ s ++ r)) with [c]. change (head (Z.eqb 91) (91%Z :: y ++ s ++ r)) with true. cbv iota. cbn [tl]. now rewrite O1, O3, (long_read s r Lg).
  - cbn [app]. rewrite <- app_assoc. destruct (one_read x (s ++ r) O) as [O1 O2]. unfold lua1. change (lua_blank 91) with false. change (lua_quote 91) with false. cbn [Z.eqb Pos.eqb]. cbv zeta. now rewrite O1, O2, (long_read s r Lg).
  - destruct (quote_rest q Q) as (_ & _ & _ & _ & _ & Nq). cbn [app]. rewrite (lua1_quoted q _ Q), <- app_assoc. rewrite (inside_read q s _ Nq I). cbn [app quoted1 fst snd]. rewrite Z.eqb_refl. destruct (Z.eqb_spec q 92); [contradiction | reflexivity].
  - destruct (quote_rest q Q) as (_ & _ & _ & _ & _ & Nq). cbn [app]. rewrite (lua1_quoted q _ Q). rewrite (inside_read q s _ Nq I). destruct r as [| c r]; cbn [quoted1 fst snd]; [now rewrite app_nil_r|]. specialize (E c eq_refl). rewrite (eol_plain c E). unfold eol, quote in *. destruct (Z.eqb_spec c 92); [lia|]. destruct (Z.eqb_spec c q); [lia|]. cbn [fst snd]. now rewrite app_nil_r.
  - destruct (quote_rest q Q) as (_ & _ & _ & _ & _ & Nq). cbn [app]. rewrite (lua1_quoted q _ Q), app_nil_r. now rewrite (inside_read q s _ Nq I).
  - destruct (number_read s r Nm) as [E (c & s' & -> & D)]. cbn [app] in *. unfold lua1. rewrite E, (proj2 (digitb c) D). unfold digit in D. unfold lua_blank, lua_quote. replace (c =? 32)%Z with false by lia. replace (c =? 9)%Z with false by lia. replace (c =? 10)%Z with false by lia. replace (c =? 13)%Z with false by lia. replace (c =? 45)%Z with false by lia. replace (c =? 34)%Z with false by lia. replace (c =? 39)%Z with false by lia. replace (c =? 91)%Z with false by lia. reflexivity.
  - destruct (run_plain word lua_word (c :: s) r wordb) as [E1 E2]; [destruct R as [R1 R2]; split; [constructor; [now left | assumption] | assumption]|]. cbn [app] in *. unfold lua1. rewrite E1, E2, (proj2 (startb c) Sc), (word_kind_read _ _ K). unfold start, letter in Sc. unfold lua_blank, lua_quote, ascii_digit_c. replace (c =? 32)%Z with false by lia. replace (c =? 9)%Z with false by lia. replace (c =? 10)%Z with false by lia. replace (c =? 13)%Z with false by lia. replace (c =? 45)%Z with false by lia. replace (c =? 34)%Z with false by lia. replace (c =? 39)%Z with false by lia. replace (c =? 91)%Z with false by lia. replace ((48 <=? c)%Z && (c <=? 57)%Z) with false by lia. reflexivity.
  - pose proof (mark_read s k r I X) as M. destruct (marks_head s k I) as (c & x & -> & E1 & E2 & E3 & E4 & E5 & E6 & E7 & E8). assert (Sk : skipn (length (c :: x)) ((c :: x) ++ r) = r) by (rewrite skipn_app, skipn_all, Nat.sub_diag; reflexivity). cbn [app] in *. unfold lua1. now rewrite E1, E2, E3, E4, E5, E6, E7, E8, M, Sk.
  - cbn [app]. unfold lua1. rewrite <- blankb, not_true_iff_false in B1. rewrite <- quoteb, not_true_iff_false in B3. rewrite B1, B3. unfold eol in B2. destruct (Z.eqb_spec c 10); [tauto|]. destruct (Z.eqb_spec c 13); [tauto|]. destruct (Z.eqb_spec c 45); [tauto|]. destruct (Z.eqb_spec c 91); [tauto|].
    destruct (ascii_digit_c c) eqn:D; [apply digitb in D; destruct B4; now right|]. destruct (lua_start c) eqn:Sc; [apply startb in Sc; destruct B4; now left|]. destruct (mark1 (c :: r)) as [[s k]|] eqn:M; [|reflexivity].
    destruct (mark1_spec _ _ _ M) as (I & E & _). destruct (B7 s k I). destruct (marks_head s k I) as (d & x & -> & _). cbn [app] in E. now injection E as <-.
Qed.

(** ** The tokens of a text *)
Lemma lua_pieces_unique k s r k' s' r' : s ++ r = s' ++ r' -> s <> [] -> s' <> [] -> lua_piece k s r -> lua_piece k' s' r' -> k = k' /\ s = s'.
Proof.
  intros E N N' P P'. destruct (piece_lua1 _ _ _ P N) as (x & -> & X). destruct (piece_lua1 _ _ _ P' N') as (x' & -> & X'). rewrite E in X. rewrite X in X'. injection X' as -> -> _. now split.
Qed.
Lemma mild_suffix a b : mild (a ++ b) -> mild b.
Proof. intros M p c d q E. apply (M (a ++ p) c d q). now rewrite E, app_assoc. Qed.
Lemma view_suffix cs l r : Forall is_scalar cs -> view (flat_source (encode cs)) (encode cs) l r -> exists p, cs = p ++ r.
Proof.
  intros F V. set (text := encode cs) in *. assert (Hs : serves (flat_source text) text) by (apply flat_serves; now exists cs). assert (Hv : valid text) by now exists cs.
  assert (B : is_boundary text (lx_pos l) = true) by (destruct V as [P _]; apply P). destruct (reads_of_boundaries text 0 (lx_pos l) Hv) as (p & R); [lia | reflexivity | exact B|]. exists p. destruct V as [_ Rr]. pose proof (reads_app _ _ _ _ _ _ R Rr) as (F1 & _ & E1). destruct (all_reads cs F) as (_ & _ & E2). fold text in E2. rewrite E2 in E1. now apply encode_inj in E1.
Qed.
Lemma lua_lex_cut cs : Forall is_scalar cs -> mild cs -> exists ps, cut lua_piece cs ps /\ lua_lex (encode cs) = Some (spans 0 ps ++ [Token UEof (length (encode cs)) (length (encode cs))]).
Proof.
  intros F Md. unfold lua_lex. set (text := encode cs). assert (Hs : serves (flat_source text) text) by (apply flat_serves; now exists cs).
  apply (lex_all_view (flat_source text) text (lua_round text) lua_piece Hs).
  - intros l c r Vl. pose proof (round_view text Hs) as W. pose proof (lua1_piece c r) as P. assert (Hm : forall l cs', view (flat_source text) text l cs' -> mild cs') by (intros l0 r0 V0; destruct (view_suffix cs l0 r0 F V0) as (p & E); rewrite E in Md; now apply mild_suffix in Md).
    specialize (W Hm l c r Vl). destruct (lua1 (c :: r)) as [[k s] t]. destruct W as (l' & E & St), P as (A & N & P). exists l', (Some k), s, t. split; [assumption|]. split; [assumption|]. split; [assumption|]. now split.
  - exact (all_reads cs F).
Qed.
