(** The lexer of regular expressions. *)
From Verif Require XmlLexProofs.
From Verif Require Import Base Utf8 Utf8Facts ScanSpec CursorModel CursorSpec CursorProofs RopeModel RopeProofs LexModel LexSpec LexProofs LexLoopProofs.
From Verif Require Import JsonLangSpec JsonLexProofs LangModel LangSpec LangLexProofs IniModel RegexModel RegexSpec.

Lemma spans_app p q : forall off, spans off (p ++ q) = spans off p ++ spans (off + length (encode (text_of_pieces p))) q.
Proof.
  induction p as [| [k s] p IH]; intros off; [cbn; now rewrite Nat.add_0_r|]. cbn [app spans]. rewrite IH. change (text_of_pieces ((k, s) :: p)) with (s ++ text_of_pieces p). rewrite encode_app, app_length, Nat.add_assoc. now rewrite app_assoc.
Qed.
Lemma text_app p q : text_of_pieces (p ++ q) = text_of_pieces p ++ text_of_pieces q.
Proof. apply flat_map_app. Qed.

(** ** What a round reads *)
Fixpoint class1 (cs : list Z) : bool * list piece * list Z :=
  match cs with
  | [] => (false, [], [])
  | c :: r =>
      if (c =? 93)%Z then (true, [(Some RRBrack, [c])], r)
      else if (c =? 92)%Z then
        match r with
        | [] => (false, [(Some RBackslash, [c])], [])
        | d :: r' => let '(b, ps, t) := class1 r' in (b, (Some RBackslash, [c]) :: (Some RCharacter, [d]) :: ps, t)
        end
      else let '(b, ps, t) := class1 r in (b, (Some RCharacter, [c]) :: ps, t)
  end.
Fixpoint count1 (cs : list Z) : bool * list piece * list Z :=
  match cs with
  | [] => (false, [], [])
  | c :: r =>
      if (c =? 125)%Z then (true, [(Some RRBrace, [c])], r)
      else if ascii_digit_c c then let '(b, ps, t) := count1 r in (b, (Some RDigit, [c]) :: ps, t)
      else if (c =? 44)%Z then let '(b, ps, t) := count1 r in (b, (Some RComma, [c]) :: ps, t)
      else (false, [], cs)
  end.
Definition table : list (Z * nat) := [(42%Z, RStar); (43%Z, RPlus); (63%Z, RQuestion); (40%Z, RLParen); (41%Z, RRParen); (94%Z, RHat); (36%Z, RDollar); (46%Z, RDot); (124%Z, RPipe)].
Definition not_line (c : Z) : bool := negb (c =? 10)%Z.
Definition item1 (cs : list Z) : list piece * bool * list Z :=
  match cs with
  | [] => ([], false, [])
  | c :: r =>
      if char_is_whitespace c then ([(Some RWhitespace, char_run char_is_whitespace cs)], false, drop_run char_is_whitespace cs)
      else if (c =? 35)%Z then ([(Some RComment, c :: char_run not_line r)], false, drop_run not_line r)
      else if (c =? 91)%Z then
        match r with
        | d :: r' => if (d =? 94)%Z then let '(b, ps, t) := class1 r' in ((Some RLBrack, [c]) :: (Some RHat, [d]) :: ps, negb b, t)
                     else let '(b, ps, t) := class1 r in ((Some RLBrack, [c]) :: ps, negb b, t)
        | [] => ([(Some RLBrack, [c])], true, [])
        end
      else if (c =? 123)%Z then let '(b, ps, t) := count1 r in ((Some RLBrace, [c]) :: ps, negb b, t)
      else if (c =? 92)%Z then match r with [] => ([(Some RBackslash, [c])], false, []) | d :: r' => ([(Some RBackslash, [c]); (Some RCharacter, [d])], false, r') end
      else match find (fun m => (c =? fst m)%Z) table with
      | Some m => ([(Some (snd m), [c])], false, r)
      | None => if existsb (Z.eqb c) (lit ",}") then ([(None, [c])], false, r) else ([(Some RCharacter, [c])], false, r)
      end
  end.

(** ** The rules *)
Section Steps.
  Variable text : str.
  Let src := flat_source text.
  Hypothesis Hs : serves src text.
  Notation view := (view src text).

  (** from [l] to [l'] over pieces *)
  Definition over (l l' : lexer) (ps : list piece) (r : list Z) : Prop :=
    view l' r /\ lx_toks l' = lx_toks l ++ spans (lx_pos l) ps /\ lx_pos l' = lx_pos l + length (encode (text_of_pieces ps)).
  Lemma over_more a b c p q r r' : over a b p r -> over b c q r' -> over a c (p ++ q) r'.
  Proof. intros (_ & T & O) (V' & T' & O'). split; [assumption|]. split; [now rewrite T', T, O, spans_app, app_assoc|]. rewrite O', O, text_app, encode_app, app_length. lia. Qed.
  Lemma over_none l cs : view l cs -> over l l [] cs.
  Proof. intros V. split; [assumption|]. cbn. split; [now rewrite app_nil_r | lia]. Qed.
  Lemma over_same l l1 l' ps r : lx_pos l1 = lx_pos l -> lx_toks l1 = lx_toks l -> over l1 l' ps r -> over l l' ps r.
  Proof. intros P T (V & T' & O). rewrite T, P in T'. rewrite P in O. split; [assumption|]. now split. Qed.
  Lemma take_over k n l c r : n = char_len c -> view l (c :: r) -> over l (rx_take text k n l) [(Some k, [c])] r.
  Proof.
    intros -> V. destruct (view_advance src text Hs l c r V) as (V' & O & T). unfold rx_take. fold src. split; [exact V'|]. cbn [add_token lx_toks]. split; [|cbn [text_of_pieces flat_map snd app]; exact O].
    unfold src in *. rewrite T. cbn [spans app]. now rewrite O.
  Qed.
  Lemma ascii_len c : (0 <= c < 128)%Z -> 1 = char_len c.
  Proof. intros H. unfold char_len. destruct (Z.ltb_spec c 0x80); [reflexivity | lia]. Qed.

  Lemma class_over : forall fuel cs l, view l cs -> length cs < fuel -> let '(b, ps, t) := class1 cs in
    exists l', rx_class_loop text fuel l = Some (b, l') /\ over l l' ps t.
  Proof.
    induction fuel as [| f IH]; intros cs l V L; [lia|]. cbn [rx_class_loop]. fold src. destruct (view_current src text Hs l cs V) as (l1 & -> & V1 & O1 & T1). destruct cs as [| c r]; cbn [hd_error class1].
    - exists l1. split; [reflexivity|]. apply (over_same l l1); auto. now apply over_none.
    - cbn [length] in L. destruct (Z.eqb_spec c 93) as [-> |].
      { eexists. split; [reflexivity|]. apply (over_same l l1); auto. now apply take_over. }
      destruct (Z.eqb_spec c 92) as [-> |].
      + pose proof (take_over RBackslash 1 l1 92%Z r eq_refl V1) as Q. destruct (view_current src text Hs _ _ (proj1 Q)) as (l2 & -> & V2 & O2 & T2). destruct r as [| d r]; cbn [hd_error].
        * destruct f as [| f]; [cbn in L; lia|]. cbn [rx_class_loop]. fold src. destruct (view_current src text Hs _ _ V2) as (l3 & -> & V3 & O3 & T3). cbn [hd_error]. exists l3. split; [reflexivity|]. apply (over_same l l1); auto.
          refine (over_more l1 _ l3 [_] [] _ _ Q _). apply (over_same _ l2); auto. apply (over_same l2 l3); auto. now apply over_none.
        * pose proof (take_over RCharacter (char_len d) l2 d r eq_refl V2) as Q2. cbn [length] in L. specialize (IH r _ (proj1 Q2) ltac:(lia)). destruct (class1 r) as [[b ps] t]. destruct IH as (l' & E & R). exists l'. split; [assumption|]. apply (over_same l l1); auto.
          refine (over_more l1 _ l' [_] (_ :: _) _ _ Q _). apply (over_same _ l2); auto. refine (over_more l2 _ l' [_] _ _ _ Q2 R).
      + pose proof (take_over RCharacter (char_len c) l1 c r eq_refl V1) as Q. specialize (IH r _ (proj1 Q) ltac:(lia)). destruct (class1 r) as [[b ps] t]. destruct IH as (l' & E & R). exists l'. split; [assumption|]. apply (over_same l l1); auto. exact (over_more l1 _ l' [_] _ _ _ Q R).
  Qed.
  Lemma count_over : forall fuel cs l, view l cs -> length cs < fuel -> let '(b, ps, t) := count1 cs in
    exists l', rx_count_loop text fuel l = Some (b, l') /\ over l l' ps t.
  Proof.
    induction fuel as [| f IH]; intros cs l V L; [lia|]. cbn [rx_count_loop]. fold src. destruct (view_current src text Hs l cs V) as (l1 & -> & V1 & O1 & T1). destruct cs as [| c r]; cbn [hd_error count1].
    - exists l1. split; [reflexivity|]. apply (over_same l l1); auto. now apply over_none.
    - cbn [length] in L. destruct (Z.eqb_spec c 125) as [-> |].
      { eexists. split; [reflexivity|]. apply (over_same l l1); auto. now apply take_over. }
      destruct (ascii_digit_c c) eqn:D; [|destruct (Z.eqb_spec c 44) as [-> |]].
      + unfold ascii_digit_c in D. rewrite andb_true_iff, !Z.leb_le in D. pose proof (take_over RDigit 1 l1 c r (ascii_len c ltac:(lia)) V1) as Q. specialize (IH r _ (proj1 Q) ltac:(lia)). destruct (count1 r) as [[b ps] t]. destruct IH as (l' & E & R). exists l'. split; [assumption|]. apply (over_same l l1); auto. exact (over_more l1 _ l' [_] _ _ _ Q R).
      + pose proof (take_over RComma 1 l1 44%Z r eq_refl V1) as Q. specialize (IH r _ (proj1 Q) ltac:(lia)). destruct (count1 r) as [[b ps] t]. destruct IH as (l' & E & R). exists l'. split; [assumption|]. apply (over_same l l1); auto. exact (over_more l1 _ l' [_] _ _ _ Q R).
      + exists l1. split; [reflexivity|]. apply (over_same l l1); auto. now apply over_none.
  Qed.

  (** A rule reads an item or leaves everything as it is. *)
  Definition reading (rule : lexer -> option (bool * lexer)) (cs : list Z) (o : option (list piece * bool * list Z)) : Prop :=
    forall l, view l cs -> exists l', rule l = Some (match o with Some _ => true | None => false end, l') /\
      match o with
      | Some (ps, b, r) => view l' r /\ lx_toks l' = lx_toks l ++ spans (lx_pos l) ps ++ (if b then [Token RError (lx_pos l) (lx_pos l')] else []) /\ lx_pos l' = lx_pos l + length (encode (text_of_pieces ps))
      | None => XmlLexProofs.same src text l l' cs
      end.
  Definition first1 (p : Z -> bool) (cs : list Z) (x : list piece * bool * list Z) : option (list piece * bool * list Z) := match cs with c :: _ => if p c then Some x else None | [] => None end.

  Lemma fst_over l l' ps r : over l l' ps r -> view l' r /\ lx_toks l' = lx_toks l ++ spans (lx_pos l) ps ++ [] /\ lx_pos l' = lx_pos l + length (encode (text_of_pieces ps)).
  Proof. rewrite app_nil_r. auto. Qed.
  Lemma broken_over l l' ps r : over l l' ps r -> view (add_token l' RError (lx_pos l) (lx_pos l')) r /\
    lx_toks (add_token l' RError (lx_pos l) (lx_pos l')) = lx_toks l ++ spans (lx_pos l) ps ++ [Token RError (lx_pos l) (lx_pos (add_token l' RError (lx_pos l) (lx_pos l')))] /\
    lx_pos (add_token l' RError (lx_pos l) (lx_pos l')) = lx_pos l + length (encode (text_of_pieces ps)).
  Proof. intros (V & T & O). split; [exact V|]. cbn [add_token lx_toks]. split; [now rewrite T, app_assoc | exact O]. Qed.

  Lemma blank_view cs : reading (rx_whitespace text) cs (first1 char_is_whitespace cs (item1 cs)).
  Proof.
    intros l V. unfold rx_whitespace, scan_whitespace. fold src. destruct (view_take src text Hs l cs char_is_whitespace V) as (l1 & -> & V1 & O1 & T1).
    pose proof (lx_moved_run src text l l1 (char_run char_is_whitespace cs) (drop_run char_is_whitespace cs)) as M. rewrite run_drop in M. specialize (M V V1). unfold lx_moved in M. rewrite M.
    pose proof (run_drop char_is_whitespace cs) as D. destruct cs as [| c r]; cbn [first1 item1].
    - eexists. split; [reflexivity|]. split; [exact V1|]. split; [cbn in O1; lia | assumption].
    - destruct (char_is_whitespace c) eqn:W.
      + cbn [char_run] in *. rewrite W in *. eexists. split; [reflexivity|]. split; [assumption|]. cbn [spans app add_token lx_toks]. change (lx_pos (add_token l1 _ _ _)) with (lx_pos l1). rewrite T1. cbn [text_of_pieces flat_map snd]. rewrite app_nil_r. split; [now rewrite <- O1 | assumption].
      + cbn [char_run] in *. rewrite W in *. eexists. split; [reflexivity|]. cbn [app] in D. rewrite D in V1. split; [assumption|]. split; [cbn in O1; lia | assumption].
  Qed.
  Lemma comment_view cs : first1 char_is_whitespace cs (item1 cs) = None -> reading (rx_comment text) cs (first1 (Z.eqb 35) cs (item1 cs)).
  Proof.
    intros Hb l V. unfold rx_comment. fold src. destruct (view_starts src text Hs l cs (lit "#")) as (b & l1 & -> & V1 & O1 & T1 & B); [now repeat constructor | assumption|]. destruct cs as [| c r]; cbn [first1 item1] in *.
    { destruct b; [destruct (proj1 B eq_refl) as (x & X); discriminate|]. exists l1. split; [reflexivity|]. now split. }
    destruct (char_is_whitespace c); [discriminate|]. rewrite (Z.eqb_sym 35). destruct (Z.eqb_spec c 35) as [-> |].
    - destruct b; [|exfalso; assert (false = true) by (apply B; now exists r); discriminate]. pose proof (view_advance1 src text Hs l1 35%Z r ltac:(lia) V1) as (V2 & T2). pose proof (view_advance src text Hs l1 35%Z r V1) as (_ & O2 & _). change (char_len 35) with 1 in O2.
      destruct (view_take src text Hs _ r not_line V2) as (l3 & E3 & V3 & O3 & T3). unfold not_line in E3 at 1. rewrite E3. eexists. split; [reflexivity|]. split; [exact V3|]. cbn [spans app add_token lx_toks]. change (lx_pos (add_token l3 _ _ _)) with (lx_pos l3).
      assert (P : lx_pos l3 = lx_pos l + length (encode (text_of_pieces [(Some RComment, 35%Z :: char_run not_line r)]))). { rewrite O3, O2, O1. cbn [text_of_pieces flat_map snd]. rewrite app_nil_r. change (35%Z :: char_run not_line r) with ([35%Z] ++ char_run not_line r). rewrite encode_app, app_length. lia. }
      split; [|exact P]. rewrite T3, T2, T1. cbn [text_of_pieces flat_map snd] in P. rewrite app_nil_r in P. now rewrite P.
    - destruct b; [destruct (proj1 B eq_refl) as (x & X); injection X as -> _; contradiction|]. exists l1. split; [reflexivity|]. now split.
  Qed.
  Lemma same_current l cs : view l cs -> exists l1, lx_current src l = (hd_error cs, l1) /\ XmlLexProofs.same src text l l1 cs.
  Proof. intros V. destruct (view_current src text Hs l cs V) as (l1 & E & V1 & O1 & T1). exists l1. split; [assumption|]. now split. Qed.

  Lemma class_view cs : first1 char_is_whitespace cs (item1 cs) = None -> reading (rx_class text) cs (first1 (Z.eqb 91) cs (item1 cs)).
  Proof.
    intros Hb l V. unfold rx_class. fold src. destruct (same_current l cs V) as (l1 & -> & V1 & O1 & T1). destruct cs as [| c r]; cbn [first1 item1 hd_error is_char] in *; [exists l1; split; [reflexivity|]; now split|].
    destruct (char_is_whitespace c); [discriminate|]. rewrite (Z.eqb_sym 91). destruct (Z.eqb_spec c 91) as [-> | Nc]; [|exists l1; split; [reflexivity|]; now split].
    change (91 =? 35)%Z with false. cbv iota. pose proof (take_over RLBrack 1 l1 91%Z r eq_refl V1) as Q. apply (over_same l l1) in Q; [|assumption | assumption]. destruct (same_current _ _ (proj1 Q)) as (l2 & -> & V2 & O2 & T2).
    assert (G : forall ps0 l3 r0, over l l3 ps0 r0 -> let '(b, ps, t) := class1 r0 in exists l', match rx_class_loop text (scan_fuel src) l3 with None => None | Some (true, l4) => Some (true, l4) | Some (false, l4) => Some (true, add_token l4 RError (lx_pos l) (lx_pos l4)) end = Some (true, l') /\
      view l' t /\ lx_toks l' = lx_toks l ++ spans (lx_pos l) (ps0 ++ ps) ++ (if negb b then [Token RError (lx_pos l) (lx_pos l')] else []) /\ lx_pos l' = lx_pos l + length (encode (text_of_pieces (ps0 ++ ps)))).
    { intros ps0 l3 r0 Q3. pose proof (class_over (scan_fuel src) r0 l3 (proj1 Q3) (view_length no_char no_char src text Hs _ _ (proj1 Q3))) as C. destruct (class1 r0) as [[b ps] t]. destruct C as (l4 & -> & R). pose proof (over_more _ _ _ _ _ _ _ Q3 R) as R'. destruct b; (eexists; split; [reflexivity|]); cbn [negb].
      - now apply fst_over.
      - now apply broken_over. }
    assert (Q2 : over l l2 [(Some RLBrack, lit "[")] r). { destruct Q as (_ & T & O). split; [assumption|]. split; [now rewrite T2 | now rewrite O2]. }
    destruct r as [| d r]; cbn [hd_error is_char].
    - specialize (G _ l2 [] Q2). cbn [class1 negb] in G. exact G.
    - destruct (Z.eqb_spec d 94) as [-> | Nd].
      + pose proof (over_more _ _ _ _ _ _ _ Q2 (take_over RHat 1 l2 94%Z r eq_refl V2)) as Q3. specialize (G _ _ r Q3). destruct (class1 r) as [[b ps] t]. exact G.
      + specialize (G _ l2 (d :: r) Q2). destruct (class1 (d :: r)) as [[b ps] t]. exact G.
  Qed.
  Definition quant (c : Z) : bool := ((c =? 42) || (c =? 43) || (c =? 63) || (c =? 123))%Z.
  Lemma quantifier_view cs : first1 char_is_whitespace cs (item1 cs) = None -> reading (rx_quantifier text) cs (first1 quant cs (item1 cs)).
  Proof.
    intros Hb l V. unfold rx_quantifier. fold src. destruct (same_current l cs V) as (l1 & -> & V1 & O1 & T1). destruct cs as [| c r]; cbn [first1 item1 hd_error is_char] in *; [exists l1; split; [reflexivity|]; now split|].
    destruct (char_is_whitespace c); [discriminate|].
    assert (G : forall k, 1 = char_len c -> exists l', Some (true, rx_take text k 1 l1) = Some (true, l') /\ view l' r /\ lx_toks l' = lx_toks l ++ spans (lx_pos l) [(Some k, [c])] ++ [] /\ lx_pos l' = lx_pos l + length (encode (text_of_pieces [(Some k, [c])]))).
    { intros k Hk. eexists. split; [reflexivity|]. apply fst_over. apply (over_same l l1); auto. now apply take_over. }
    destruct (Z.eqb_spec c 42) as [-> |]; [exact (G RStar eq_refl)|]. destruct (Z.eqb_spec c 43) as [-> |]; [exact (G RPlus eq_refl)|]. destruct (Z.eqb_spec c 63) as [-> |]; [exact (G RQuestion eq_refl)|].
    destruct (Z.eqb_spec c 123) as [-> |].
    - change (quant 123) with true. change (123 =? 35)%Z with false. change (123 =? 91)%Z with false. cbv iota. pose proof (take_over RLBrace 1 l1 123%Z r eq_refl V1) as Q. apply (over_same l l1) in Q; [|assumption | assumption].
      pose proof (count_over (scan_fuel src) r _ (proj1 Q) (view_length no_char no_char src text Hs _ _ (proj1 Q))) as C. destruct (count1 r) as [[b ps] t]. destruct C as (l4 & -> & R). pose proof (over_more _ _ _ _ _ _ _ Q R) as R'. destruct b; (eexists; split; [reflexivity|]); cbn [negb].
      + now apply fst_over.
      + now apply broken_over.
    - assert (quant c = false) as ->. { unfold quant. cbn. repeat match goal with |- context [(c =? ?x)%Z] => destruct (Z.eqb_spec c x); [contradiction|] end. reflexivity. }
      exists l1. split; [reflexivity|]. now split.
  Qed.
  Lemma marks_view ms cs : (forall m, In m ms -> (0 <= fst m < 128)%Z) ->
    reading (rx_marks text ms) cs (match cs with c :: r => match find (fun m => (c =? fst m)%Z) ms with Some m => Some ([(Some (snd m), [c])], false, r) | None => None end | [] => None end).
  Proof.
    intros A l V. unfold rx_marks. fold src. destruct (same_current l cs V) as (l1 & -> & V1 & O1 & T1). destruct cs as [| c r]; cbn [hd_error]; [exists l1; split; [reflexivity|]; now split|].
    destruct (find _ ms) as [m|] eqn:E; [|exists l1; split; [reflexivity|]; now split]. apply find_some in E. destruct E as [I E]. apply Z.eqb_eq in E. eexists. split; [reflexivity|]. apply fst_over. apply (over_same l l1); auto. apply take_over; [|assumption]. apply ascii_len. rewrite E. now apply A.
  Qed.
  Lemma escape_view cs : first1 char_is_whitespace cs (item1 cs) = None -> reading (rx_escape text) cs (first1 (Z.eqb 92) cs (item1 cs)).
  Proof.
    intros Hb l V. unfold rx_escape. fold src. destruct (same_current l cs V) as (l1 & -> & V1 & O1 & T1). destruct cs as [| c r]; cbn [first1 item1 hd_error is_char] in *; [exists l1; split; [reflexivity|]; now split|].
    destruct (char_is_whitespace c); [discriminate|]. rewrite (Z.eqb_sym 92). destruct (Z.eqb_spec c 92) as [-> |]; [|exists l1; split; [reflexivity|]; now split]. change (92 =? 35)%Z with false. change (92 =? 91)%Z with false. change (92 =? 123)%Z with false. cbv iota.
    pose proof (take_over RBackslash 1 l1 92%Z r eq_refl V1) as Q. apply (over_same l l1) in Q; [|assumption | assumption]. destruct (same_current _ _ (proj1 Q)) as (l2 & -> & V2 & O2 & T2).
    assert (Q2 : over l l2 [(Some RBackslash, lit "\")] r). { destruct Q as (_ & T & O). split; [assumption|]. split; [now rewrite T2 | now rewrite O2]. }
    destruct r as [| d r]; cbn [hd_error]; (eexists; split; [reflexivity|]); apply fst_over; [exact Q2|]. exact (over_more _ _ _ _ _ _ _ Q2 (take_over RCharacter (char_len d) l2 d r eq_refl V2)).
  Qed.
  Lemma character_view cs : reading (rx_character text) cs (match cs with c :: r => if rx_literal c then Some ([(Some RCharacter, [c])], false, r) else None | [] => None end).
  Proof.
    intros l V. unfold rx_character. fold src. destruct (same_current l cs V) as (l1 & -> & V1 & O1 & T1). destruct cs as [| c r]; cbn [hd_error]; [exists l1; split; [reflexivity|]; now split|].
    destruct (rx_literal c); [|exists l1; split; [reflexivity|]; now split]. eexists. split; [reflexivity|]. apply fst_over. apply (over_same l l1); auto. now apply take_over.
  Qed.

  Fixpoint first_of (os : list (option (list piece * bool * list Z))) : option (list piece * bool * list Z) :=
    match os with [] => None | Some x :: _ => Some x | None :: r => first_of r end.
  Lemma try_view cs rs : forall os, Forall2 (fun r o => reading r cs o) rs os -> reading (try_rules rs) cs (first_of os).
  Proof.
    induction rs as [| r rs IH]; intros os F l V; inversion F as [| x o y os' H1 H2]; subst; cbn [try_rules first_of].
    - exists l. split; [reflexivity|]. now split.
    - destruct (H1 l V) as (l1 & -> & C). destruct o as [[[ps b] t]|]; [exists l1; now split|]. destruct C as (V1 & O1 & T1). destruct (IH os' H2 l1 V1) as (l2 & -> & C2). exists l2. split; [reflexivity|]. destruct (first_of os') as [[[ps b] t]|].
      + rewrite O1, T1 in C2. exact C2.
      + destruct C2 as (V2 & O2 & T2). split; [assumption|]. split; congruence.
  Qed.

  Lemma round_view l c r : view l (c :: r) -> let '(ps, b, t) := item1 (c :: r) in exists l', guarded_round src (rx_rules text) l = Some l' /\
    view l' t /\ lx_toks l' = lx_toks l ++ spans (lx_pos l) ps ++ (if b then [Token RError (lx_pos l) (lx_pos l')] else []) /\ lx_pos l' = lx_pos l + length (encode (text_of_pieces ps)).
  Proof.
    intros V. unfold guarded_round, rx_rules. destruct (char_is_whitespace c) eqn:W.
    - cbn [try_rules]. pose proof (blank_view (c :: r) l V) as B. unfold first1 in B. rewrite W in B. destruct (item1 (c :: r)) as [[ps b] t]. destruct B as (l1 & -> & B). exists l1. now split.
    - assert (Hb : first1 char_is_whitespace (c :: r) (item1 (c :: r)) = None) by (unfold first1; now rewrite W).
      assert (Q : reading (try_rules (rx_rules text)) (c :: r) (if existsb (Z.eqb c) (lit ",}") then None else Some (item1 (c :: r)))).
      { match goal with |- reading _ _ ?o => assert (E : first_of [first1 char_is_whitespace (c :: r) (item1 (c :: r)); first1 (Z.eqb 35) (c :: r) (item1 (c :: r)); first1 (Z.eqb 91) (c :: r) (item1 (c :: r)); first1 quant (c :: r) (item1 (c :: r));
          match find (fun m => (c =? fst m)%Z) [(40%Z, RLParen); (41%Z, RRParen)] with Some m => Some ([(Some (snd m), [c])], false, r) | None => None end;
          match find (fun m => (c =? fst m)%Z) [(94%Z, RHat); (36%Z, RDollar)] with Some m => Some ([(Some (snd m), [c])], false, r) | None => None end;
          first1 (Z.eqb 92) (c :: r) (item1 (c :: r));
          match find (fun m => (c =? fst m)%Z) [(46%Z, RDot)] with Some m => Some ([(Some (snd m), [c])], false, r) | None => None end;
          if rx_literal c then Some ([(Some RCharacter, [c])], false, r) else None;
          match find (fun m => (c =? fst m)%Z) [(124%Z, RPipe)] with Some m => Some ([(Some (snd m), [c])], false, r) | None => None end] = o) end.
        { unfold first1, quant, rx_literal, item1, table. rewrite W. cbn [first_of]. rewrite !(Z.eqb_sym _ c).
          repeat match goal with |- context [lit ?x] => let y := eval compute in (lit x) in change (lit x) with y end. cbn [find fst snd existsb].
          destruct (Z.eqb_spec c 35) as [-> |]; [reflexivity|]. destruct (Z.eqb_spec c 91) as [-> |]; [reflexivity|]. destruct (Z.eqb_spec c 123) as [-> |]; [reflexivity|]. destruct (Z.eqb_spec c 92) as [-> |]; [reflexivity|].
          destruct (Z.eqb_spec c 42) as [-> |]; [reflexivity|]. destruct (Z.eqb_spec c 43) as [-> |]; [reflexivity|]. destruct (Z.eqb_spec c 63) as [-> |]; [reflexivity|]. cbn [orb].
          destruct (Z.eqb_spec c 40) as [-> |]; [reflexivity|]. destruct (Z.eqb_spec c 41) as [-> |]; [reflexivity|]. destruct (Z.eqb_spec c 94) as [-> |]; [reflexivity|]. destruct (Z.eqb_spec c 36) as [-> |]; [reflexivity|]. destruct (Z.eqb_spec c 46) as [-> |]; [reflexivity|]. destruct (Z.eqb_spec c 124) as [-> |]; [reflexivity|].
          cbn [orb]. destruct (Z.eqb_spec c 44); destruct (Z.eqb_spec c 125); reflexivity. }
        rewrite <- E. apply try_view. unfold rx_rules. apply Forall2_cons; [apply blank_view|]. apply Forall2_cons; [now apply comment_view|]. apply Forall2_cons; [now apply class_view|]. apply Forall2_cons; [now apply quantifier_view|].
        apply Forall2_cons; [apply (marks_view _ (c :: r)); cbn; intros m [<- | [<- | []]]; cbn; lia|]. apply Forall2_cons; [apply (marks_view _ (c :: r)); cbn; intros m [<- | [<- | []]]; cbn; lia|]. apply Forall2_cons; [now apply escape_view|].
        apply Forall2_cons; [apply (marks_view _ (c :: r)); cbn; intros m [<- | []]; cbn; lia|]. apply Forall2_cons; [apply (character_view (c :: r))|]. apply Forall2_cons; [apply (marks_view _ (c :: r)); cbn; intros m [<- | []]; cbn; lia|]. apply Forall2_nil. }
      unfold rx_rules in Q. destruct (existsb (Z.eqb c) (lit ",}")) eqn:G.
      + destruct (Q l V) as (l1 & -> & V1 & O1 & T1). assert (I : item1 (c :: r) = ([(None, [c])], false, r)). { change (existsb (Z.eqb c) (lit ",}")) with ((c =? 44)%Z || ((c =? 125)%Z || false)) in G. rewrite orb_false_r, orb_true_iff, !Z.eqb_eq in G. now destruct G as [-> | ->]. }
        rewrite I. eexists. split; [reflexivity|]. destruct (guard_stuck src text Hs l l1 c r V1 O1 T1) as (V2 & T2). split; [exact V2|]. split; [exact T2|].
        cbn [text_of_pieces flat_map snd app]. pose proof (view_pos src text _ _ V2) as P2. pose proof (view_pos src text _ _ V) as P. change (c :: r) with ([c] ++ r) in P. rewrite encode_app, app_length in P. unfold src in *. lia.
      + destruct (item1 (c :: r)) as [[ps b] t]. destruct (Q l V) as (l1 & -> & C). exists l1. now split.
  Qed.
End Steps.

(** ** Items *)
Lemma class1_members m rest : members m -> class1 (text_of_pieces m ++ rest) = let '(b, ps, t) := class1 rest in (b, m ++ ps, t).
Proof.
  induction 1 as [| c m N1 N2 M IH | c m M IH].
  - cbn. now destruct (class1 rest) as [[b ps] t].
  - change (text_of_pieces ((Some RCharacter, [c]) :: m)) with (c :: text_of_pieces m). cbn [app class1]. destruct (Z.eqb_spec c 93); [contradiction|]. destruct (Z.eqb_spec c 92); [contradiction|]. rewrite IH. now destruct (class1 rest) as [[b ps] t].
  - change (text_of_pieces ((Some RBackslash, lit "\") :: (Some RCharacter, [c]) :: m)) with (92%Z :: c :: text_of_pieces m). cbn [app class1]. change (92 =? 93)%Z with false. change (92 =? 92)%Z with true. cbv iota. rewrite IH. now destruct (class1 rest) as [[b ps] t].
Qed.
Lemma class1_spec : forall n cs, length cs <= n -> let '(b, ps, t) := class1 cs in text_of_pieces ps ++ t = cs /\
  if b then exists m, members m /\ ps = m ++ [(Some RRBrack, lit "]")] else t = [] /\ (members ps \/ exists m, members m /\ ps = m ++ [(Some RBackslash, lit "\")]).
Proof.
  induction n as [| n IH]; intros [| c r] L; try (cbn in L; lia).
  - cbn. split; [reflexivity|]. split; [reflexivity|]. left. constructor.
  - cbn. split; [reflexivity|]. split; [reflexivity|]. left. constructor.
  - cbn [class1]. cbn [length] in L. destruct (Z.eqb_spec c 93) as [-> |]; [split; [reflexivity|]; exists []; split; [constructor | reflexivity]|]. destruct (Z.eqb_spec c 92) as [-> |].
    + destruct r as [| d r]; [split; [reflexivity|]; split; [reflexivity|]; right; exists []; split; [constructor | reflexivity]|]. cbn [length] in L. specialize (IH r ltac:(lia)). destruct (class1 r) as [[b ps] t]. destruct IH as [E C].
      split; [change (92%Z :: d :: text_of_pieces ps ++ t = 92%Z :: d :: r); now rewrite E|]. destruct b.
      * destruct C as (m & M & ->). eexists (_ :: _ :: m). split; [now apply (MEscape d) | reflexivity].
      * destruct C as [-> [M | (m & M & ->)]]; (split; [reflexivity|]); [left; now apply (MEscape d) | right]. eexists (_ :: _ :: m). split; [now apply (MEscape d) | reflexivity].
    + specialize (IH r ltac:(lia)). destruct (class1 r) as [[b ps] t]. destruct IH as [E C]. split; [change (c :: text_of_pieces ps ++ t = c :: r); now rewrite E|]. destruct b.
      * destruct C as (m & M & ->). eexists (_ :: m). split; [now apply (MChar c) | reflexivity].
      * destruct C as [-> [M | (m & M & ->)]]; (split; [reflexivity|]); [left; now apply (MChar c) | right]. eexists (_ :: m). split; [now apply (MChar c) | reflexivity].
Qed.
Lemma digitb c : ascii_digit_c c = true <-> digit c.
Proof. unfold ascii_digit_c, digit. rewrite andb_true_iff, !Z.leb_le. tauto. Qed.
Lemma count1_figures m rest : Forall figure m -> count1 (text_of_pieces m ++ rest) = let '(b, ps, t) := count1 rest in (b, m ++ ps, t).
Proof.
  induction 1 as [| p m [-> | (c & D & ->)] M IH].
  - cbn. now destruct (count1 rest) as [[b ps] t].
  - change (text_of_pieces ((Some RComma, lit ",") :: m)) with (44%Z :: text_of_pieces m). cbn [app count1]. change (44 =? 125)%Z with false. change (ascii_digit_c 44) with false. change (44 =? 44)%Z with true. cbv iota. rewrite IH. now destruct (count1 rest) as [[b ps] t].
  - change (text_of_pieces ((Some RDigit, [c]) :: m)) with (c :: text_of_pieces m). cbn [app count1]. apply digitb in D. rewrite D. apply digitb in D. unfold digit in D. destruct (Z.eqb_spec c 125); [lia|]. rewrite IH. now destruct (count1 rest) as [[b ps] t].
Qed.
Lemma count1_spec cs : let '(b, ps, t) := count1 cs in text_of_pieces ps ++ t = cs /\
  if b then exists m, Forall figure m /\ ps = m ++ [(Some RRBrace, lit "}")] else Forall figure ps /\ ends (fun c => digit c \/ c = 44%Z \/ c = 125%Z) t.
Proof.
  induction cs as [| c r IH]; [cbn; split; [reflexivity|]; split; [constructor|]; intros c E; discriminate|]. cbn [count1]. destruct (Z.eqb_spec c 125) as [-> |]; [split; [reflexivity|]; exists []; split; [constructor | reflexivity]|].
  destruct (ascii_digit_c c) eqn:D; [|destruct (Z.eqb_spec c 44) as [-> |]].
  - apply digitb in D. destruct (count1 r) as [[b ps] t]. destruct IH as [E C]. split; [change (c :: text_of_pieces ps ++ t = c :: r); now rewrite E|]. assert (Fc : figure (Some RDigit, [c])) by (right; now exists c). destruct b.
    + destruct C as (m & M & ->). eexists (_ :: m). split; [now apply (Forall_cons _ Fc) | reflexivity].
    + destruct C as [M Et]. split; [now apply (Forall_cons _ Fc) | assumption].
  - destruct (count1 r) as [[b ps] t]. destruct IH as [E C]. split; [change (44%Z :: text_of_pieces ps ++ t = 44%Z :: r); now rewrite E|]. assert (Fc : figure (Some RComma, lit ",")) by now left. destruct b.
    + destruct C as (m & M & ->). eexists (_ :: m). split; [now apply (Forall_cons _ Fc) | reflexivity].
    + destruct C as [M Et]. split; [now apply (Forall_cons _ Fc) | assumption].
  - split; [reflexivity|]. split; [constructor|]. intros x Ex Hx. injection Ex as <-. destruct Hx as [Dx | [? | ?]]; [|contradiction | contradiction]. apply digitb in Dx. congruence.
Qed.

Lemma table_marks c k : In ([c], k) marks <-> exists m, find (fun m => (c =? fst m)%Z) table = Some m /\ snd m = k.
Proof.
  split.
  - intros H. cbn in H. repeat (destruct H as [H | H]; [injection H as <- <-; eexists; split; reflexivity|]). destruct H.
  - intros (m & E & <-). apply find_some in E. destruct E as [I E]. apply Z.eqb_eq in E. subst c. unfold table in I. cbn in I. cbn. intuition (subst; tauto).
Qed.
Lemma table_none c : find (fun m => (c =? fst m)%Z) table = None <-> forall k, ~ In ([c], k) marks.
Proof.
  split.
  - intros E k I. apply table_marks in I. destruct I as (m & E' & _). congruence.
  - intros N. destruct (find _ table) as [m|] eqn:E; [|reflexivity]. exfalso. apply (N (snd m)). apply table_marks. now exists m.
Qed.
Lemma marks_single s k : In (s, k) marks -> exists c, s = [c].
Proof. intros H. cbn in H. repeat (destruct H as [H | H]; [injection H as <- <-; eexists; reflexivity|]). destruct H. Qed.
Lemma others_spec c : In c others <-> (c = 91 \/ c = 123 \/ c = 92 \/ c = 125 \/ c = 44 \/ c = 35)%Z.
Proof. change others with [91; 123; 92; 125; 44; 35]%Z. cbn. intuition congruence. Qed.
Lemma gaps_spec c : existsb (Z.eqb c) (lit ",}") = true <-> In c (lit ",}").
Proof. rewrite existsb_exists. split; [intros (x & I & E); apply Z.eqb_eq in E; now subst | intros I; exists c; split; [assumption | apply Z.eqb_refl]]. Qed.
Lemma in_gaps c : In c (lit ",}") <-> (c = 44 \/ c = 125)%Z.
Proof. change (lit ",}") with [44; 125]%Z. cbn. intuition congruence. Qed.

Lemma item1_spec cs : cs <> [] -> let '(ps, b, t) := item1 cs in text_of_pieces ps ++ t = cs /\ rx_item ps b t.
Proof.
  destruct cs as [| c r]; [contradiction|]. intros _. unfold item1. destruct (char_is_whitespace c) eqn:W.
  { split; [cbn [text_of_pieces flat_map snd]; rewrite app_nil_r; apply run_drop|]. apply IBlank.
    - cbn [char_run]. now rewrite W.
    - apply char_run_all.
    - intros x Ex S. pose proof (drop_head char_is_whitespace (c :: r)) as D. destruct (drop_run _ _); [discriminate|]. injection Ex as <-. unfold space in S. congruence. }
  destruct (Z.eqb_spec c 35) as [-> | N35].
  { split; [change (35%Z :: char_run not_line r ++ [] ++ drop_run not_line r = 35%Z :: r) || (cbn [text_of_pieces flat_map snd]; rewrite app_nil_r; cbn [app]); now rewrite run_drop|]. apply (IComment (char_run not_line r)).
    - eapply Forall_impl; [|apply char_run_all]. intros x Hx. cbn beta in Hx. unfold not_line in Hx. apply negb_true_iff, Z.eqb_neq in Hx. assumption.
    - intros x Ex S. pose proof (drop_head not_line r) as D. destruct (drop_run _ _); [discriminate|]. injection Ex as <-. unfold not_line in D. apply negb_false_iff, Z.eqb_eq in D. contradiction. }
  destruct (Z.eqb_spec c 91) as [-> | N91].
  { assert (G : forall o r0, opening o -> (o = [(Some RLBrack, lit "[")] -> ends (eq 94%Z) r0) -> let '(b, ps, t) := class1 r0 in text_of_pieces (o ++ ps) ++ t = text_of_pieces o ++ r0 /\ rx_item (o ++ ps) (negb b) t).
    { intros o r0 Oo Hh. pose proof (class1_spec (length r0) r0 ltac:(lia)) as C. destruct (class1 r0) as [[b ps] t]. destruct C as [E C]. split; [now rewrite text_app, <- app_assoc, E|].
      assert (Hm : forall m x, ps = m ++ x -> hat_read o m). { intros m x -> Eo y Ey Ny. apply (Hh Eo y); [|assumption]. rewrite <- E, text_app. destruct (text_of_pieces m); [discriminate|]. exact Ey. }
      destruct b; cbn [negb].
      - destruct C as (m & M & ->). apply IClass; [assumption | exact (Hm m _ eq_refl) | assumption].
      - destruct C as [-> [M | (m & M & ->)]]; [apply IClassOpen; [assumption | apply (Hm ps []); now rewrite app_nil_r | assumption] | apply IClassEscape; [assumption | exact (Hm m _ eq_refl) | assumption]]. }
    destruct r as [| d r].
    - specialize (G _ [] OPlain ltac:(intros _ x X; discriminate)). exact G.
    - destruct (Z.eqb_spec d 94) as [-> | Nd].
      + specialize (G _ r OHat ltac:(discriminate)). destruct (class1 r) as [[b ps] t]. exact G.
      + specialize (G _ (d :: r) OPlain ltac:(intros _ x X; injection X as <-; congruence)). destruct (class1 (d :: r)) as [[b ps] t]. exact G. }
  destruct (Z.eqb_spec c 123) as [-> | N123].
  { pose proof (count1_spec r) as C. destruct (count1 r) as [[b ps] t]. destruct C as [E C]. split; [change (123%Z :: text_of_pieces ps ++ t = 123%Z :: r); now rewrite E|]. destruct b; cbn [negb].
    - destruct C as (m & M & ->). now apply ICount.
    - now apply ICountOpen. }
  destruct (Z.eqb_spec c 92) as [-> | N92].
  { destruct r as [| d r]; (split; [reflexivity|]); constructor. }
  destruct (find _ table) as [m|] eqn:Ef.
  { split; [reflexivity|]. apply IMark. apply table_marks. now exists m. }
  destruct (existsb _ _) eqn:G; (split; [reflexivity|]).
  - apply IGap. now apply gaps_spec.
  - apply IChar. split; [unfold space; congruence|]. split; [|now apply table_none]. rewrite others_spec. intros H. assert (~ (c = 44 \/ c = 125)%Z) by (rewrite <- in_gaps, <- gaps_spec; congruence). tauto.
Qed.

Lemma mark_plain c k : In ([c], k) marks -> char_is_whitespace c = false /\ (c =? 35)%Z = false /\ (c =? 91)%Z = false /\ (c =? 123)%Z = false /\ (c =? 92)%Z = false.
Proof. intros H. cbn in H. repeat (destruct H as [H | H]; [injection H as <- <-; repeat split; reflexivity|]). destruct H. Qed.
Lemma item1_complete ps b r : rx_item ps b r -> item1 (text_of_pieces ps ++ r) = (ps, b, r) /\ text_of_pieces ps <> [].
Proof.
  assert (G : forall o m x, opening o -> hat_read o m -> members m -> ends (eq 94%Z) x -> item1 (text_of_pieces (o ++ m) ++ x) = let '(b, ps, t) := class1 x in (o ++ m ++ ps, negb b, t)).
  { intros o m x Oo Hh M Hx. pose proof (class1_members m x M) as C. rewrite text_app, <- app_assoc. destruct Oo.
    - change (text_of_pieces [(Some RLBrack, lit "[")]) with [91%Z]. cbn [app]. unfold item1. change (char_is_whitespace 91) with false. change (91 =? 35)%Z with false. change (91 =? 91)%Z with true. cbv iota. specialize (Hh eq_refl).
      assert (Hd : ends (eq 94%Z) (text_of_pieces m ++ x)) by (destruct (text_of_pieces m); [exact Hx | exact Hh]). destruct (text_of_pieces m ++ x) as [| d y].
      + cbn [class1] in C. destruct (class1 x) as [[b1 ps1] t1]. injection C as C1 C2 C3. rewrite <- C1, <- C2, <- C3. reflexivity.
      + destruct (Z.eqb_spec d 94) as [-> |]; [exfalso; now apply (Hd 94%Z)|]. rewrite C. now destruct (class1 x) as [[b1 ps1] t1].
    - change (text_of_pieces [(Some RLBrack, lit "["); (Some RHat, lit "^")]) with [91; 94]%Z. cbn [app]. unfold item1. change (char_is_whitespace 91) with false. change (91 =? 35)%Z with false. change (91 =? 91)%Z with true. change (94 =? 94)%Z with true. cbv iota. rewrite C. now destruct (class1 x) as [[b1 ps1] t1]. }
  assert (No : forall o m, opening o -> text_of_pieces (o ++ m) <> []) by (intros o m [|]; discriminate).
  intros H. destruct H.
  - cbn [text_of_pieces flat_map snd]. rewrite app_nil_r. split; [|assumption]. destruct s as [| c s]; [contradiction|]. cbn [app]. unfold item1. inversion H0; subst. replace (char_is_whitespace c) with true by (symmetry; assumption). change (c :: s ++ r) with ((c :: s) ++ r).
    destruct (run_unique char_is_whitespace (c :: s) r _ eq_refl) as [<- <-]; [assumption | | reflexivity]. destruct r as [| d r]; [exact I|]. destruct (char_is_whitespace d) eqn:W; [|reflexivity]. exfalso. now apply (H1 d).
  - cbn [text_of_pieces flat_map snd]. rewrite app_nil_r. split; [|discriminate]. change ((lit "#" ++ s) ++ r) with (35%Z :: s ++ r). unfold item1. change (char_is_whitespace 35) with false. change (35 =? 35)%Z with true. cbv iota.
    destruct (run_unique not_line s r _ eq_refl) as [<- <-]; [| | reflexivity].
    + eapply Forall_impl; [|exact H]. intros x Hx. cbn beta in Hx. unfold not_line. now apply negb_true_iff, Z.eqb_neq.
    + destruct r as [| d r]; [exact I|]. unfold not_line. apply negb_false_iff, Z.eqb_eq. destruct (Z.eq_dec d 10); [assumption|]. exfalso. now apply (H0 d).
  - rewrite app_assoc, text_app, <- app_assoc. split; [|intros E; apply app_eq_nil in E; now apply (No o ps)]. change (text_of_pieces [(Some RRBrack, lit "]")] ++ r) with (93%Z :: r). rewrite G; [|assumption.. | intros x X; injection X as <-; discriminate]. cbn. now rewrite app_assoc.
  - split; [|now apply No]. rewrite G; [|assumption.. | intros x X; discriminate]. cbn. now rewrite app_nil_r.
  - rewrite app_assoc, text_app, <- app_assoc. split; [|intros E; apply app_eq_nil in E; now apply (No o ps)]. change (text_of_pieces [(Some RBackslash, lit "\")] ++ []) with [92%Z]. rewrite G; [|assumption.. | intros x X; injection X as <-; discriminate]. cbn. now rewrite app_assoc.
  - split; [|discriminate]. change (text_of_pieces ((Some RLBrace, lit "{") :: ps ++ [(Some RRBrace, lit "}")])) with (123%Z :: text_of_pieces (ps ++ [(Some RRBrace, lit "}")])). cbn [app]. unfold item1. change (char_is_whitespace 123) with false. change (123 =? 35)%Z with false. change (123 =? 91)%Z with false. change (123 =? 123)%Z with true. cbv iota.
    rewrite text_app, <- app_assoc, count1_figures by assumption. reflexivity.
  - split; [|discriminate]. change (text_of_pieces ((Some RLBrace, lit "{") :: ps)) with (123%Z :: text_of_pieces ps). cbn [app]. unfold item1. change (char_is_whitespace 123) with false. change (123 =? 35)%Z with false. change (123 =? 91)%Z with false. change (123 =? 123)%Z with true. cbv iota.
    rewrite count1_figures by assumption. assert (E : count1 r = (false, [], r)). { destruct r as [| c r]; [reflexivity|]. cbn [count1]. specialize (H0 c eq_refl). destruct (Z.eqb_spec c 125); [tauto|]. destruct (ascii_digit_c c) eqn:D; [apply digitb in D; tauto|]. destruct (Z.eqb_spec c 44); [tauto | reflexivity]. }
    rewrite E. now rewrite app_nil_r.
  - split; [reflexivity | discriminate].
  - split; [reflexivity | discriminate].
  - destruct (marks_single _ _ H) as (c & ->). cbn [text_of_pieces flat_map snd app]. split; [|discriminate]. unfold item1. destruct (mark_plain _ _ H) as (-> & -> & -> & -> & ->). apply table_marks in H. destruct H as (m & -> & <-). reflexivity.
  - cbn [text_of_pieces flat_map snd app]. split; [|discriminate]. destruct H as (Hw & Ho & Hm). unfold item1. unfold space in Hw. destruct (char_is_whitespace c); [contradiction|]. rewrite others_spec in Ho. apply table_none in Hm. rewrite Hm. assert (existsb (Z.eqb c) (lit ",}") = false) as ->. { rewrite <- not_true_iff_false, gaps_spec, in_gaps. tauto. }
    destruct (Z.eqb_spec c 35); [tauto|]. destruct (Z.eqb_spec c 91); [tauto|]. destruct (Z.eqb_spec c 123); [tauto|]. destruct (Z.eqb_spec c 92); [tauto | reflexivity].
  - cbn [text_of_pieces flat_map snd app]. split; [|discriminate]. apply in_gaps in H. destruct H as [-> | ->]; reflexivity.
Qed.

Lemma items_unique cs its : rx_items cs its -> forall its', rx_items cs its' -> its = its'.
Proof.
  induction 1 as [| ps b r its I R IH]; intros its' R'.
  - inversion R' as [| ps b r its0 I R E1 E2]; [reflexivity|]. apply item1_complete in I. destruct (text_of_pieces ps); [destruct I; contradiction | discriminate].
  - destruct (item1_complete _ _ _ I) as [E N]. remember (text_of_pieces ps ++ r) as cs eqn:Ec. destruct R' as [| ps' b' r' its' I' R'].
    + destruct (text_of_pieces ps); [contradiction | discriminate].
    + destruct (item1_complete _ _ _ I') as [E' _]. rewrite E' in E. injection E as -> -> ->. f_equal. now apply IH.
Qed.

Section All.
  Variable text : str.
  Let src := flat_source text.
  Hypothesis Hs : serves src text.
  Lemma rounds_items : forall fuel cs l, view src text l cs -> length cs < fuel ->
    exists l' its, rounds src (guarded_round src (rx_rules text)) fuel l = Some l' /\ rx_items cs its /\ lx_toks l' = lx_toks l ++ item_tokens (lx_pos l) its /\ lx_pos l' = length text.
  Proof.
    induction fuel as [| f IH]; intros cs l V L; [lia|]. cbn [rounds]. rewrite (XmlLexProofs.end_view src text Hs l cs V). destruct cs as [| c r].
    - exists l, []. split; [reflexivity|]. split; [constructor|]. split; [cbn; now rewrite app_nil_r|]. pose proof (view_pos src text l [] V) as P. cbn in P. unfold src in *. lia.
    - pose proof (round_view text Hs l c r V) as W. pose proof (item1_spec (c :: r) ltac:(discriminate)) as I. destruct (item1 (c :: r)) as [[ps b] t]. destruct W as (l1 & E1 & V1 & T1 & O1), I as [Et I]. unfold src in *. rewrite E1.
      assert (Np : text_of_pieces ps <> []) by now apply (item1_complete ps b t). destruct (IH t l1 V1) as (l' & its & E & R & T & P).
      { apply (f_equal (@length Z)) in Et. rewrite app_length in Et. destruct (text_of_pieces ps); [contradiction|]. cbn [length] in *. lia. }
      exists l', ((ps, b) :: its). split; [assumption|]. split; [rewrite <- Et; now apply (RxItem ps b)|]. split; [|assumption]. rewrite T, T1. cbn [item_tokens]. rewrite O1, <- !app_assoc. reflexivity.
  Qed.
End All.

Lemma rx_lex_items cs : Forall is_scalar cs -> exists its, rx_items cs its /\ rx_lex (encode cs) = Some (rx_tokens cs its).
Proof.
  intros F. set (text := encode cs). assert (Hs : serves (flat_source text) text) by (apply flat_serves; now exists cs). assert (R : reads text 0 (length text) cs) by now apply all_reads. destruct (new_view (flat_source text) text Hs cs R) as [V O].
  destruct (rounds_items text Hs (scan_fuel (flat_source text)) cs _ V (view_length no_char no_char _ text Hs _ _ V)) as (l' & its & E & I & T & P). exists its. split; [assumption|].
  unfold rx_lex, lex_all. fold text. rewrite E. unfold add_eof. cbn [add_token lx_toks]. rewrite T, P, O. reflexivity.
Qed.
Lemma rx_lex_exact cs its : Forall is_scalar cs -> rx_items cs its -> rx_lex (encode cs) = Some (rx_tokens cs its).
Proof. intros F I. destruct (rx_lex_items cs F) as (its' & I' & E). now rewrite (items_unique _ _ I _ I'). Qed.
