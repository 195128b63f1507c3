(** The Python lexer lays out the pieces of the text. *)
From Verif Require Import Base Utf8 Utf8Facts ScanSpec CursorModel CursorSpec CursorProofs RopeModel LexModel LexSpec LexProofs LexLoopProofs.
From Verif Require Import JsonLangSpec JsonLexProofs LangModel LangSpec LangLexProofs PyModel PySpec PyProofs.

Lemma deeper_same k depth : bracket k = false -> deeper k depth = depth.
Proof. unfold bracket, deeper. intros H. apply orb_false_iff in H as [-> ->]. reflexivity. Qed.
Lemma special_newline k : special k = false -> (k =? PyNewline) = false.
Proof. unfold special. destruct (k =? PyNewline); [|reflexivity]. now rewrite orb_true_r. Qed.

Section Steps.
  Variable (src : source) (text : str).
  Hypothesis Hs : serves src text.
  Notation view := (view src text).
  Notation did := (did src text).

  Definition token_kind (k depth : nat) : nat := if (k =? PyNewline) && (0 <? depth) then PyWhitespace else k.

  Lemma match_view s l c r : view l (c :: r) ->
    exists l' k, py_match src c s l = Some (Py l' (py_stack s) (deeper k (py_depth s)) (if k =? PyNewline then true else py_start s)) /\ did l l' k (token_kind k (py_depth s)) (c :: r).
  Proof.
    intros V. assert (Plain : forall l' k, did l l' k k (c :: r) -> special k = false -> bracket k = false ->
      exists l0 k, Some (Py l' (py_stack s) (py_depth s) (py_start s)) = Some (Py l0 (py_stack s) (deeper k (py_depth s)) (if k =? PyNewline then true else py_start s)) /\ did l l0 k (token_kind k (py_depth s)) (c :: r)).
    { intros l' k D K1 K2. exists l', k. apply special_newline in K1. unfold token_kind. rewrite K1, (deeper_same k _ K2). split; [reflexivity | assumption]. }
    unfold py_match. cbv zeta. destruct (py_blank c) eqn:Eb; [apply blankb in Eb; destruct (white_view src text Hs l c r V Eb) as (l' & -> & D); exists l', PyWhitespace; now split|].
    destruct (py_eol c) eqn:Ee; [apply eolb in Ee; eexists _, PyNewline; split; [reflexivity|]; exact (newline_view src text Hs (py_depth s) l c r V Ee)|].
    destruct (Z.eqb_spec c 35) as [-> | N35]; [destruct (comment_view src text Hs l r V) as (l' & -> & D); exists l', PyComment; now split|].
    destruct (py_quote c) eqn:Eq; [apply quoteb in Eq; destruct (string_view src text Hs l c r V Eq) as (l' & -> & D); exists l', PyString; now split|].
    destruct (py_digit c) eqn:Ed; [apply digitb in Ed; destruct (number_view src text Hs l c r V Ed) as (l' & -> & D); exists l', PyNumber; now split|].
    destruct (py_prefix c) eqn:Ep.
    { apply prefixb in Ep. destruct (prefixed_view src text Hs l c r V Ep) as [(E & l1 & -> & V1 & O1 & T1) | (l' & k & -> & D & K1 & K2)]; [|now apply (Plain l' k)].
      assert (Lc : letter c). { pose proof (string_kind_in c Ep) as Ik. now apply prefix_kind in Ik. }
      destruct (word_view src text Hs l1 c r V1 Lc (fun _ => E)) as (l' & k & -> & D & K1 & K2). cbn [option_map]. apply (Plain l' k); [|assumption | assumption]. destruct D as (sp & r' & H1 & H2 & H3 & H4). exists sp, r'. split; [assumption|]. split; [assumption|]. split; [assumption|]. now rewrite H4, T1, O1. }
    destruct (py_letter c) eqn:El.
    { apply letterb in El. destruct (word_view src text Hs l c r V El) as (l' & k & -> & D & K1 & K2); [intros I; exfalso; exact (not_true _ _ (prefixb c) Ep I)|]. now apply (Plain l' k). }
    destruct (py_is_open c) eqn:Eo.
    { destruct (delimiter_view src text Hs l c r V) as (k & D & K1 & K2 & K3); [now rewrite Eo|]. exists (py_delimiter src l), k. apply special_newline in K1. unfold token_kind, deeper. rewrite K1, K2, Eo. split; [reflexivity | assumption]. }
    destruct (py_is_close c) eqn:Ec.
    { destruct (delimiter_view src text Hs l c r V) as (k & D & K1 & K2 & K3); [now rewrite Eo, Ec|]. exists (py_delimiter src l), k. apply special_newline in K1. unfold token_kind, deeper. rewrite K1, K2, K3, Eo, Ec. split; [reflexivity | assumption]. }
    destruct (py_is_operator c) eqn:Ex.
    { destruct (operator_view src text Hs l c r V Ex) as (k & D & K1 & K2). now apply (Plain _ k). }
    destruct (py_is_punct c) eqn:Epu.
    { destruct (delimiter_view src text Hs l c r V) as (k & D & K1 & K2 & K3); [now rewrite Eo, Ec, Epu|]. apply (Plain _ k); [assumption | assumption|]. unfold bracket. now rewrite K2, K3, Eo, Ec. }
    apply (Plain _ PyError); [|reflexivity | reflexivity]. destruct (view_advance src text Hs l c r V) as (V1 & _ & T1). exists [c], r. split; [reflexivity|]. split; [|split; [exact V1|]; cbn [py_token_to add_token lx_toks]; now rewrite T1].
    constructor; [exact (not_true _ _ (blankb c) Eb) | exact (not_true _ _ (eolb c) Ee) | assumption | exact (not_true _ _ (digitb c) Ed) | exact (not_true _ _ (letterb c) El) | exact (not_true _ _ (quoteb c) Eq) | exact (not_true _ _ (py_is_operator_in c) Ex) |].
    apply (not_true _ _ (py_marks_in c)). now rewrite Eo, Ec, Epu.
  Qed.

  Lemma did_moves l l' k tk cs : view l cs -> did l l' k tk cs -> lx_pos l < lx_pos l'.
  Proof.
    intros V (s & r & -> & P & V' & _). apply piece_nonempty in P. pose proof (view_pos src text l _ V) as A. pose proof (view_pos src text l' _ V') as B. rewrite encode_app, app_length in A.
    destruct s as [| c s]; [contradiction|]. cbn [encode] in A. rewrite app_length, encode_char_length in A. pose proof (char_len_pos c). lia.
  Qed.

  (** *** Indentation *)
  Lemma blank_ascii s : Forall blank s -> Forall ascii s.
  Proof. apply Forall_impl. intros c. unfold blank, ascii. lia. Qed.
  Lemma columns_cons c s : columns (c :: s) = column c + columns s.
  Proof. reflexivity. Qed.
  Lemma measure_view : forall fuel cs off n, is_boundary text off = true -> reads text off (length text) cs -> length cs < fuel ->
    py_measure src fuel off n = Some (off + length (char_run py_blank cs), n + columns (char_run py_blank cs)).
  Proof.
    induction fuel as [| f IH]; intros cs off n B R L; [lia|]. cbn [py_measure]. rewrite (get_view src text Hs off cs B R). destruct cs as [| c cs]; cbn [hd_error char_run].
    - unfold columns. cbn. now rewrite !Nat.add_0_r.
    - assert (Step : blank c -> is_boundary text (S off) = true /\ reads text (S off) (length text) cs).
      { intros Hc. destruct (reads_skip src text Hs off [c] cs) as (B1 & R1); [constructor; [unfold blank, ascii in *; lia | constructor] | assumption | exact R|]. cbn [length] in *. now rewrite Nat.add_1_r in *. }
      cbn [length] in L. destruct (Z.eqb_spec c 32) as [-> | N1]; [|destruct (Z.eqb_spec c 9) as [-> | N2]].
      + change (py_blank 32) with true. cbn iota. destruct (Step (or_introl eq_refl)) as (B1 & R1). rewrite (IH cs (S off) (n + 1) B1 R1) by lia. f_equal. f_equal; [cbn [length]; lia|]. rewrite columns_cons. change (column 32) with 1. lia.
      + change (py_blank 9) with true. cbn iota. destruct (Step (or_intror eq_refl)) as (B1 & R1). rewrite (IH cs (S off) (n + 8) B1 R1) by lia. f_equal. f_equal; [cbn [length]; lia|]. rewrite columns_cons. change (column 9) with 8. lia.
      + assert (py_blank c = false) as -> by (apply (is_false _ _ (blankb c)); unfold blank; tauto). unfold columns. cbn. now rewrite !Nat.add_0_r.
  Qed.

  Lemma columns_pos s : s <> [] -> 0 < columns s.
  Proof. destruct s as [| c s]; [contradiction|]. intros _. unfold columns, column. cbn. destruct (c =? 9)%Z; lia. Qed.

  Lemma pop_marks n : forall stack l, last stack 1 = 0 -> py_pop n stack l = Some (leave n stack, Lexer (lx_cur l) (lx_toks l ++ map (at_ (lx_pos l)) (repeat PyDedent (length stack - length (leave n stack))))).
  Proof.
    assert (Hl : forall stack, length (leave n stack) <= length stack) by (induction stack as [| top rest IH]; cbn [leave length]; [lia | destruct (n <? top); cbn [length]; lia]).
    induction stack as [| top rest IH]; intros l B; [discriminate|]. cbn [py_pop leave]. destruct (Nat.ltb_spec n top).
    - destruct rest as [| b rest]; [cbn in B; lia|]. rewrite IH by exact B. f_equal. f_equal. change (lx_cur (py_mark PyDedent l)) with (lx_cur l). change (lx_pos (py_mark PyDedent l)) with (lx_pos l). f_equal. cbn [py_mark add_token lx_toks]. rewrite <- app_assoc. f_equal.
      specialize (Hl (b :: rest)). replace (length (top :: b :: rest) - length (leave n (b :: rest))) with (S (length (b :: rest) - length (leave n (b :: rest)))) by (cbn [length] in *; lia). reflexivity.
    - rewrite Nat.sub_diag. cbn [repeat map]. rewrite app_nil_r. now destruct l.
  Qed.
  Lemma shift_stack n stack : last stack 1 = 0 -> last (fst (shift n stack)) 1 = 0.
  Proof.
    unfold shift. intros B. destruct (hd 0 stack <? n); cbn [fst].
    - destruct stack; [discriminate | exact B].
    - revert B. induction stack as [| top rest IH]; [discriminate|]. cbn [leave]. destruct (Nat.ltb_spec n top); [|easy]. intros B. destruct rest; [cbn in B; lia | now apply IH].
  Qed.

  (** Where the line starts with nothing that counts. *)
  Definition vain_chars (cs : list Z) : bool := match cs with [] => true | c :: _ => py_eol c || (c =? 35)%Z end.
  Lemma indentation_view stack l cs : last stack 1 = 0 -> view l cs ->
    let ws := char_run py_blank cs in let r := drop_run py_blank cs in
    exists l', py_indentation src stack l = Some (if vain_chars r then stack else fst (shift (columns ws) stack), l') /\
      if vain_chars r then l' = l
      else view l' r /\ lx_toks l' = lx_toks l ++ (match ws with [] => [] | _ => [Token PyWhitespace (lx_pos l) (lx_pos l')] end) ++ map (at_ (lx_pos l')) (snd (shift (columns ws) stack)).
  Proof.
    intros B V. cbv zeta. set (ws := char_run py_blank cs). set (r := drop_run py_blank cs). unfold py_indentation.
    rewrite (measure_view (scan_fuel src) cs (lx_pos l) 0 (proj2 (proj1 V)) (proj2 V) (view_length no_char no_char src text Hs _ _ V)). fold ws. rewrite Nat.add_0_l.
    assert (Ecs : cs = ws ++ r) by (symmetry; apply run_drop). pose proof (run_all py_blank blank cs blankb) as F. fold ws in F. rewrite Ecs in V. clear Ecs. clearbody ws r. destruct (reads_skip src text Hs (lx_pos l) ws r (blank_ascii ws F) (proj2 (proj1 V)) (proj2 V)) as (B1 & R1).
    rewrite (get_view src text Hs _ r B1 R1). destruct r as [| c r]; cbn [hd_error vain_chars]; [exists l; now split|]. destruct (py_eol c || (c =? 35)%Z); [exists l; now split|].
    assert (Len : lx_pos l + length ws <= length text) by (apply reads_end in R1; lia).
    set (l1 := if 0 <? columns ws then _ else l).
    assert (V1 : view l1 (c :: r) /\ lx_pos l1 = lx_pos l + length ws /\ lx_toks l1 = lx_toks l ++ match ws with [] => [] | _ => [Token PyWhitespace (lx_pos l) (lx_pos l1)] end).
    { subst l1. destruct ws as [| w ws'] eqn:Ew.
      - change (0 <? columns []) with false. cbn iota. cbn [length app] in *. rewrite app_nil_r. split; [exact V|]. split; [lia | reflexivity].
      - destruct (Nat.ltb_spec 0 (columns (w :: ws'))) as [_ | Bad]; [|pose proof (columns_pos (w :: ws')); assert (w :: ws' <> []) by discriminate; lia]. cbv zeta. set (off := lx_pos l + length (w :: ws')) in *.
        match goal with |- context [view ?x _] => set (l2 := x) end. assert (Eo : lx_pos l2 = off) by (unfold l2, lx_pos, set_position; cbn [lx_cur cu_off]; rewrite (Hlen src text Hs); lia). rewrite !Eo.
        split; [split; [split; [exact (proj1 (proj1 V)) | change (cu_off (lx_cur l2)) with (lx_pos l2); rewrite Eo; exact B1] | rewrite Eo; exact R1]|]. split; reflexivity. }
    clearbody l1. destruct V1 as (V1 & O1 & T1). destruct stack as [| top stack]; [discriminate|]. unfold shift. cbn [hd]. destruct (top <? columns ws).
    - eexists. split; [reflexivity|]. cbn [fst snd map py_mark add_token lx_toks]. split; [exact V1|]. rewrite T1, <- app_assoc. reflexivity.
    - rewrite (pop_marks (columns ws) (top :: stack) l1 B). eexists. split; [reflexivity|]. cbn [fst snd lx_toks]. split; [exact V1|]. rewrite T1, <- app_assoc. reflexivity.
  Qed.

  (** *** The pieces at the start of a line *)
  Lemma cut_first cs ps : cut py_piece cs ps -> vain ps = vain_chars cs.
  Proof.
    intros C. apply cut_cases in C as [[-> ->] | (k & s & r & ps' & -> & -> & N & P & C)]; [reflexivity|]. destruct s as [| c s]; [contradiction|]. destruct k as [k|]; [|inversion P]. cbn [vain app vain_chars]. apply piece_head in P as (_ & P2 & P3). unfold is_kind, kind_of. cbn [fst]. now rewrite P2, P3.
  Qed.
  Lemma cut_blanks cs ps : cut py_piece cs ps -> char_run py_blank cs <> [] ->
    exists ps', ps = (Some PyWhitespace, char_run py_blank cs) :: ps' /\ cut py_piece (drop_run py_blank cs) ps'.
  Proof.
    intros C N. destruct cs as [| c cs]; [contradiction|]. cbn [char_run] in N. destruct (py_blank c) eqn:Eb; [|contradiction]. apply cut_cases in C as [[? _] | (k & s & r & ps' & E & -> & Ns & P & C)]; [discriminate|].
    destruct s as [| d s]; [contradiction|]. injection E as <- ->. assert (k = Some PyWhitespace). { destruct k as [k|]; [|inversion P]. apply piece_head in P as (P1 & _). rewrite Eb in P1. apply Nat.eqb_eq in P1. now subst k. } subst k.
    assert (H : Forall (fun c => py_blank c = true) (c :: s) /\ match r with [] => True | c :: _ => py_blank c = false end).
    { inversion P; subst; try (match goal with H : _ = PyWhitespace |- _ => idtac end).
      - split; [constructor; [assumption|]; eapply Forall_impl; [|eassumption]; intros a; apply blankb|]. destruct r as [| a r]; [exact I|]. apply (is_false _ _ (blankb a)). match goal with H : ends blank _ |- _ => now apply H end.
      - match goal with H : word_of _ _ |- _ => apply word_kind in H; destruct H; discriminate end.
      - match goal with H : In _ prefixes |- _ => apply prefix_kind in H; destruct H; discriminate end.
      - match goal with H : In _ operators |- _ => apply operator_kind in H; destruct H; discriminate end.
      - match goal with H : In _ marks |- _ => apply mark_kind in H; destruct H; discriminate end. }
    destruct H as [H1 H2]. destruct (run_unique py_blank (c :: s) r (c :: s ++ r) eq_refl H1 H2) as [E1 E2]. rewrite <- E1, <- E2. now exists ps'.
  Qed.
  Lemma cut_indent cs ps : cut py_piece cs ps -> cs <> [] -> line_indent ps = if vain_chars (drop_run py_blank cs) then None else Some (columns (char_run py_blank cs)).
  Proof.
    intros C N. destruct (list_eq_dec Z.eq_dec (char_run py_blank cs) []) as [E | E].
    - pose proof (run_drop py_blank cs) as D. rewrite E in *. cbn [app] in D. rewrite D. rewrite <- (cut_first cs ps C). apply cut_cases in C as [[-> ->] | (k & s & r & ps' & -> & -> & Ns & P & C)]; [contradiction|].
      destruct s as [| c s]; [contradiction|]. destruct k as [k|]; [|inversion P]. cbn [app char_run] in E. destruct (py_blank c) eqn:Eb; [discriminate|]. apply piece_head in P as (P1 & _). cbn [line_indent]. unfold is_kind at 1, kind_of. cbn [fst]. rewrite P1, Eb. reflexivity.
    - destruct (cut_blanks cs ps C E) as (ps' & -> & C'). cbn [line_indent]. change (is_kind (Some PyWhitespace, char_run py_blank cs) PyWhitespace) with true. cbn iota. cbn [snd]. now rewrite (cut_first _ _ C').
  Qed.

  (** *** The rounds *)
  Lemma close_marks : forall stack l, py_close stack l = Lexer (lx_cur l) (lx_toks l ++ map (fun _ => at_ (lx_pos l) PyDedent) (tl stack)).
  Proof.
    induction stack as [| a [| b stack] IH]; intros l.
    - cbn. rewrite app_nil_r. now destruct l.
    - cbn. rewrite app_nil_r. now destruct l.
    - change (py_close (a :: b :: stack) l) with (py_close (b :: stack) (py_mark PyDedent l)). rewrite IH. cbn [tl py_mark add_token lx_cur lx_toks]. unfold lx_pos. cbn [lx_cur]. f_equal. rewrite <- app_assoc. reflexivity.
  Qed.

  Definition line_start (start : bool) (depth : nat) : bool := start && (depth =? 0).
  Lemma rounds_layout : forall fuel cs s, view (py_lx s) cs -> last (py_stack s) 1 = 0 -> 2 * length cs + (if line_start (py_start s) (py_depth s) then 1 else 0) < fuel ->
    exists s' ps, py_rounds src fuel s = Some s' /\ cut py_piece cs ps /\ lx_pos (py_lx s') = length text /\
      lx_toks (py_close (py_stack s') (py_lx s')) = lx_toks (py_lx s) ++ layout true (py_stack s) (py_depth s) (py_start s) (lx_pos (py_lx s)) ps.
  Proof.
    induction fuel as [| f IH]; intros cs s V B L; [lia|]. destruct s as [l stack depth start]. cbn [py_lx py_stack py_depth py_start] in *. cbn [py_rounds py_lx]. unfold not_at_end. rewrite (Hlen src text Hs). pose proof (view_pos src text l cs V) as P. destruct cs as [| c r].
    - cbn [encode length] in P. destruct (Nat.ltb_spec (lx_pos l) (length text)); [lia|]. eexists _, []. split; [reflexivity|]. split; [constructor|]. cbn [py_lx py_stack layout]. split; [lia|]. now rewrite close_marks.
    - pose proof P as P0. cbn [encode] in P. rewrite app_length, encode_char_length in P. pose proof (char_len_pos c). destruct (Nat.ltb_spec (lx_pos l) (length text)); [|lia]. unfold py_round. cbn [py_lx py_stack py_depth py_start]. fold (line_start start depth). destruct (line_start start depth) eqn:Els.
      + apply andb_true_iff in Els as [-> Ed]. apply Nat.eqb_eq in Ed. subst depth. destruct (indentation_view stack l (c :: r) B V) as (l' & -> & Q). set (ws := char_run py_blank (c :: r)) in *. set (r' := drop_run py_blank (c :: r)) in *. destruct (vain_chars r') eqn:Ev.
        * subst l'. destruct (IH (c :: r) (Py l stack 0 false)) as (s' & ps & E & C & Op & T); [exact V | exact B | cbn [py_start py_depth line_start andb]; lia|]. exists s', ps. split; [exact E|]. split; [exact C|]. split; [exact Op|]. rewrite T. cbn [py_lx py_stack py_depth py_start]. f_equal.
          pose proof (cut_indent _ _ C) as Hi. fold ws r' in Hi. rewrite Ev in Hi. destruct ps as [| p ps]; [reflexivity|]. cbn [layout andb Nat.eqb]. rewrite Hi by discriminate. reflexivity.
        * destruct Q as (V' & T'). assert (Ecs : c :: r = ws ++ r') by (symmetry; apply run_drop). assert (Lr : length (c :: r) = length ws + length r') by (rewrite Ecs, app_length; reflexivity).
          destruct (IH r' (Py l' (fst (shift (columns ws) stack)) 0 false)) as (s' & ps & E & C & Op & T); [exact V' | now apply shift_stack | cbn [py_start py_depth line_start andb]; lia|].
          destruct ws as [| w ws'] eqn:Ew.
          -- exists s', ps. split; [exact E|]. split; [rewrite Ecs; exact C|]. split; [exact Op|]. rewrite T. cbn [py_lx py_stack py_depth py_start] in *. rewrite T'. cbn [app]. rewrite <- app_assoc. f_equal.
             assert (lx_pos l' = lx_pos l) as El. { pose proof (view_pos src text l' r' V') as Pl. cbn [app] in Ecs. rewrite Ecs in P0. lia. } rewrite El.
             assert (Hr : r' <> []) by (intros Hr; now rewrite Hr in Ev). pose proof (cut_indent _ _ C Hr) as Hi. cbn [app] in Ecs. rewrite <- Ecs in Hi. fold r' in Hi. change (char_run py_blank (c :: r)) with (char_run py_blank (c :: r)) in Hi. fold ws in Hi. rewrite Ev in Hi. rewrite Ew in Hi.
             destruct ps as [| p ps]; [discriminate|]. assert (Np : is_kind p PyWhitespace = false). { apply cut_cases in C as [[? _] | (k & s & r2 & ps2 & E2 & Ep & Ns & Pp & C2)]; [contradiction|]. injection Ep as -> ->. destruct s as [| d s]; [contradiction|]. destruct k as [k|]; [|inversion Pp]. apply piece_head in Pp as (P1 & _). unfold is_kind, kind_of. cbn [fst]. rewrite P1. rewrite <- Ecs in E2. injection E2 as <- _. unfold ws in Ew. cbn [char_run] in Ew. now destruct (py_blank c). }
             cbn [layout andb Nat.eqb]. rewrite Hi. rewrite Np. destruct (shift (columns []) stack) as [st ms]. cbn [fst snd map app]. now rewrite <- app_assoc.
          -- exists s', ((Some PyWhitespace, w :: ws') :: ps). split; [exact E|]. split.
             { rewrite Ecs. constructor; [discriminate | | exact C]. pose proof (run_all py_blank blank (c :: r) blankb) as F. fold ws in F. rewrite Ew in F. inversion F; subst. constructor; [assumption | assumption | apply run_ends, blankb]. }
             split; [exact Op|]. rewrite T. cbn [py_lx py_stack py_depth py_start] in *. rewrite T'. cbn [layout andb Nat.eqb snd]. change (is_kind (Some PyWhitespace, w :: ws') PyWhitespace) with true. change (is_kind (Some PyWhitespace, w :: ws') PyNewline) with false. cbn [line_indent snd]. change (is_kind (Some PyWhitespace, w :: ws') PyWhitespace) with true. cbn iota. rewrite (cut_first _ _ C), Ev.
             assert (lx_pos l' = lx_pos l + length (encode (w :: ws'))) as El. { pose proof (view_pos src text l' r' V') as Pl. rewrite Ecs, encode_app, app_length in P0. lia. } rewrite <- El.
             destruct (shift (columns (w :: ws')) stack) as [st ms]. cbn [fst snd]. change (kind_of (Some PyWhitespace, w :: ws')) with PyWhitespace. change (deeper PyWhitespace 0) with 0. cbn [andb app]. rewrite <- !app_assoc. reflexivity.
      + destruct (view_current src text Hs l _ V) as (l1 & -> & V1 & O1 & T1). cbn [hd_error]. destruct (match_view (Py l stack depth start) l1 c r V1) as (l' & k & -> & D). cbn [py_lx py_stack py_depth py_start] in *.
        pose proof (did_moves l1 l' _ _ _ V1 D) as Mv. unfold advance_if_dead_lock. destruct (Nat.eqb_spec (lx_pos l') (lx_pos l)); [lia|]. destruct D as (sp & r' & Ecs & Pp & V' & T').
        assert (Ns : sp <> []) by (now apply piece_nonempty in Pp). assert (Lr : length (c :: r) = length sp + length r') by (rewrite Ecs, app_length; reflexivity).
        assert (0 < length sp) by (destruct sp; [contradiction | cbn; lia]).
        destruct (IH r' (Py l' stack (deeper k depth) (if k =? PyNewline then true else start))) as (s' & ps & E & C & Op & T); [exact V' | exact B | match goal with |- context [if ?b then 1 else 0] => destruct b end; lia|].
        exists s', ((Some k, sp) :: ps). split; [exact E|]. split; [rewrite Ecs; now constructor|]. split; [exact Op|]. rewrite T. cbn [py_lx py_stack py_depth py_start] in *. rewrite T', T1, O1. rewrite <- app_assoc. f_equal.
        assert (lx_pos l' = lx_pos l + length (encode sp)) as El. { pose proof (view_pos src text l' r' V') as Pl. rewrite Ecs, encode_app, app_length in P0. lia. }
        cbn [layout snd]. rewrite <- El. unfold line_start in Els. rewrite Els. change (kind_of (Some k, sp)) with k. unfold is_kind. change (kind_of (Some k, sp)) with k. change (kind_of (Some k, sp)) with k. unfold token_kind.
        assert (Est : (if k =? PyNewline then (depth =? 0) || true || start else start && (0 <? depth)) = (if k =? PyNewline then true else start)).
        { destruct (k =? PyNewline); [now rewrite orb_true_r|]. destruct start; [|reflexivity]. cbn [andb] in *. apply Nat.eqb_neq in Els. apply Nat.ltb_lt. lia. }
        rewrite Est. destruct (k =? PyWhitespace); cbn [map app]; reflexivity.
  Qed.

  Lemma lex_layout cs : reads text 0 (length text) cs ->
    exists ps, cut py_piece cs ps /\ py_lex src = Some (layout true [0] 0 true 0 ps ++ [Token PyError (length text) (length text)]).
  Proof.
    intros R. destruct (new_view src text Hs cs R) as [V O]. pose proof (view_length no_char no_char src text Hs _ _ V) as L. destruct (rounds_layout (2 * scan_fuel src) cs (Py (new_lexer src) [0] 0 true) V eq_refl) as (s' & ps & E & C & Op & T); [cbn [py_start py_depth]; unfold line_start; cbn [andb Nat.eqb]; lia|].
    exists ps. split; [exact C|]. unfold py_lex. rewrite E. cbn [add_eof add_token lx_toks]. rewrite T. cbn [py_lx py_stack py_depth py_start]. rewrite O. cbn [new_lexer lx_toks app]. f_equal. f_equal. rewrite close_marks. unfold lx_pos in *. cbn [lx_cur]. now rewrite Op.
  Qed.
End Steps.
