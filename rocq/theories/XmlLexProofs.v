(** The XML lexer. *)
From Verif Require Import PyProofs.
From Verif Require Import Base Utf8 Utf8Facts ScanSpec CursorModel CursorSpec CursorProofs RopeModel LexModel LexSpec LexProofs LexLoopProofs.
From Verif Require Import JsonLangSpec JsonLexProofs LangModel LangSpec LangLexProofs IniModel XmlModel XmlSpec.

(** ** Classes *)
Lemma digitb c : ascii_digit_c c = true <-> digit c.
Proof. unfold ascii_digit_c, digit. rewrite andb_true_iff, !Z.leb_le. tauto. Qed.
Lemma letterb c : ascii_alpha_c c = true <-> letter c.
Proof. unfold ascii_alpha_c, letter. rewrite orb_true_iff, !andb_true_iff, !Z.leb_le. tauto. Qed.
Lemma alnumb c : xml_alnum c = true <-> (letter c \/ digit c).
Proof. unfold xml_alnum. now rewrite orb_true_iff, letterb, digitb. Qed.
Lemma hexb c : xml_hex c = true <-> hex c.
Proof. unfold xml_hex, hex. rewrite !orb_true_iff, digitb, !andb_true_iff, !Z.leb_le. tauto. Qed.
Lemma startb c : xml_name_start c = true <-> name_start c.
Proof. unfold xml_name_start, name_start. rewrite !orb_true_iff, letterb, !Z.eqb_eq. tauto. Qed.
Lemma nameb c : xml_name_char c = true <-> name_char c.
Proof. unfold xml_name_char, name_char, name_start. rewrite !orb_true_iff, alnumb, !Z.eqb_eq. tauto. Qed.
Definition plain (c : Z) : bool := negb (existsb (Z.eqb c) xml_stops).
Lemma plainb c : plain c = true <-> ~ special c.
Proof.
  unfold plain, special. rewrite negb_true_iff. change xml_stops with [32; 9; 10; 13; 60; 62; 61; 34; 39; 33; 63; 38; 59]%Z. split.
  - intros H I. assert (existsb (Z.eqb c) [32; 9; 10; 13; 60; 62; 61; 34; 39; 33; 63; 38; 59]%Z = true); [|congruence]. apply existsb_exists. exists c. split; [assumption | apply Z.eqb_refl].
  - intros H. destruct (existsb _ _) eqn:E; [|reflexivity]. apply existsb_exists in E. destruct E as (x & I & E). apply Z.eqb_eq in E. now subst x.
Qed.

(** ** What a round reads *)
Fixpoint until (e cs : list Z) : bool * list Z * list Z :=
  match cs with
  | [] => (false, [], [])
  | c :: r => if prefixb e cs then (true, e, skipn (length e) cs) else let '(b, s, t) := until e r in (b, c :: s, t)
  end.
Fixpoint to_angle (d : Z) (cs : list Z) : bool * list Z * list Z :=
  match cs with
  | [] => (false, [], [])
  | c :: r =>
      if (c =? 62)%Z && (d =? 0)%Z then (true, [c], r)
      else let '(b, s, t) := to_angle (if c =? 91 then d + 1 else if c =? 93 then d - 1 else d)%Z r in (b, c :: s, t)
  end.
Definition refer (kind : nat) (o : list Z) (p : Z -> bool) (cs : list Z) : nat * list Z * list Z :=
  match char_run p cs, drop_run p cs with
  | c :: n, d :: r => if (d =? 59)%Z then (kind, o ++ (c :: n) ++ lit ";", r) else (XError, o ++ c :: n, d :: r)
  | n, r => (XError, o ++ n, r)
  end.
Fixpoint folded (fold : Z -> Z) (u cs : list Z) : bool :=
  match u, cs with
  | [], _ => true
  | d :: u, c :: cs => (fold c =? d)%Z && folded fold u cs
  | _, [] => false
  end.
Notation cased := (folded xml_upper).
Definition within (k k' : nat) (o e cs : list Z) : nat * list Z * list Z :=
  let '(b, s, t) := until e cs in (if b then k else k', o ++ s, t).
Definition xml1 (cs : list Z) : nat * list Z * list Z :=
  match cs with
  | [] => (0, [], [])
  | c :: r =>
      if char_is_whitespace c then (XWhitespace, char_run char_is_whitespace cs, drop_run char_is_whitespace cs)
      else if (c =? 60)%Z then
        if prefixb (lit "!--") r then within XComment XComment (lit "<!--") (lit "-->") (skipn 3 r)
        else if prefixb (lit "!") r && cased (lit "DOCTYPE") (skipn 1 r) then
          let '(b, s, t) := to_angle 0 (skipn 8 r) in (if b then XDoctype else XError, firstn 9 cs ++ s, t)
        else if prefixb (lit "![CDATA[") r then within XCData XError (lit "<![CDATA[") (lit "]]>") (skipn 8 r)
        else if prefixb (lit "?") r then within XInstruction XError (lit "<?") (lit "?>") (skipn 1 r)
        else if prefixb (lit "/") r then (XLeftAngleSlash, lit "</", skipn 1 r)
        else (XLeftAngle, lit "<", r)
      else if (c =? 47)%Z && prefixb (lit ">") r then (XSlashRightAngle, lit "/>", skipn 1 r)
      else if (c =? 62)%Z then (XRightAngle, lit ">", r)
      else if (c =? 61)%Z then (XEquals, lit "=", r)
      else if (c =? 38)%Z then
        if prefixb (lit "#x") r then refer XCharRef (lit "&#x") xml_hex (skipn 2 r)
        else if prefixb (lit "#") r then refer XCharRef (lit "&#") ascii_digit_c (skipn 1 r)
        else refer XEntity (lit "&") xml_alnum r
      else if (c =? 34)%Z || (c =? 39)%Z then within XStringLit XStringLit [c] [c] r
      else if xml_name_start c then (XIdentifier, c :: char_run xml_name_char r, drop_run xml_name_char r)
      else if (c =? 33)%Z then (XExclamation, lit "!", r)
      else if (c =? 63)%Z then (XQuestion, lit "?", r)
      else if (c =? 59)%Z then (XSemicolon, lit ";", r)
      else (XText, char_run plain cs, drop_run plain cs)
  end.

(** ** [until] and its meaning *)
Lemma prefixb_spec p : forall s, prefixb p s = true <-> exists r, s = p ++ r.
Proof. exact (prefixb_iff p). Qed.
Lemma prefixb_no p s : prefixb p s = false <-> forall r, s <> p ++ r.
Proof. rewrite <- not_true_iff_false, prefixb_spec. split; [intros H r E; apply H; now exists r | intros H (r & E); now apply (H r)]. Qed.
Lemma prefixb_skip p s : prefixb p s = true -> s = p ++ skipn (length p) s.
Proof. intros H. apply prefixb_spec in H. destruct H as (r & ->). now rewrite skipn_app, skipn_all, Nat.sub_diag. Qed.

Lemma until_app e cs : let '(_, s, t) := until e cs in s ++ t = cs.
Proof.
  induction cs as [| c r IH]; [reflexivity|]. cbn [until]. destruct (prefixb e (c :: r)) eqn:P; [symmetry; now apply prefixb_skip|]. destruct (until e r) as [[b s] t]. cbn. now rewrite IH.
Qed.
Lemma until_spec e cs : e <> [] -> let '(b, s, t) := until e cs in if b then closed_by e s else without e s /\ t = [].
Proof.
  intros N. induction cs as [| c r IH].
  - cbn. split; [|reflexivity]. intros x y H. symmetry in H. apply app_eq_nil in H. destruct H as [_ H]. apply app_eq_nil in H. now destruct H.
  - cbn [until]. pose proof (until_app e r) as A. destruct (prefixb e (c :: r)) eqn:P.
    + split; [now exists []|]. intros x y H. apply (f_equal (@length Z)) in H. rewrite !app_length in H. destruct y; [reflexivity | cbn in H; lia].
    + pose proof (proj1 (prefixb_no _ _) P) as P'. clear P. rename P' into P. destruct (until e r) as [[b s] t]. subst r. destruct b.
      * destruct IH as [(b0 & ->) U]. split; [now exists (c :: b0)|]. intros x y H. destruct x as [| x0 x]; [|injection H as _ H; now apply (U x)].
        destruct (P (y ++ t)). rewrite app_comm_cons, H. cbn. now rewrite <- app_assoc.
      * destruct IH as [W ->]. split; [|reflexivity]. intros x y H. destruct x as [| x0 x]; [|injection H as _ H; now apply (W x y)]. rewrite app_nil_r in P. now apply (P y).
Qed.
Lemma until_closed e t : forall s, e <> [] -> closed_by e s -> until e (s ++ t) = (true, s, t).
Proof.
  intros s N. induction s as [| c s IH]; intros [(b0 & Eb) U].
  - symmetry in Eb. apply app_eq_nil in Eb. now destruct Eb.
  - cbn [app until]. destruct (prefixb e (c :: s ++ t)) eqn:P.
    + apply prefixb_spec in P. destruct P as (r & P). assert (L : length e <= length (c :: s)) by (rewrite Eb, app_length; lia).
      assert (E : c :: s = e ++ firstn (length (c :: s) - length e) r).
      { assert (F : firstn (length (c :: s)) ((c :: s) ++ t) = c :: s) by (rewrite firstn_app, firstn_all, Nat.sub_diag; cbn; now rewrite app_nil_r). etransitivity; [symmetry; exact F|]. change ((c :: s) ++ t) with (c :: s ++ t). rewrite P, firstn_app. f_equal. apply firstn_all2. assumption. }
      assert (Y : firstn (length (c :: s) - length e) r = []) by (apply (U []); exact E). rewrite Y, app_nil_r in E. subst e. change (c :: s ++ t) with ((c :: s) ++ t). now rewrite skipn_app, skipn_all, Nat.sub_diag.
    + destruct b0 as [| c0 b0]; [cbn in Eb; subst e; exfalso; apply (proj1 (prefixb_no _ _) P t); now rewrite app_comm_cons|]. injection Eb as <- ->. rewrite IH; [reflexivity|]. split; [now exists b0|]. intros x y H. apply (U (c :: x) y). now rewrite H.
Qed.
Lemma until_open e s : without e s -> until e s = (false, s, []).
Proof.
  induction s as [| c s IH]; intros W; [reflexivity|]. cbn [until]. destruct (prefixb e (c :: s)) eqn:P; [apply prefixb_spec in P; destruct P as (r & P); now destruct (W [] r)|]. rewrite IH; [reflexivity|]. intros x y H. apply (W (c :: x) y). now rewrite H.
Qed.

(** ** Document types *)
Lemma angle_app cs : forall d, let '(_, s, t) := to_angle d cs in s ++ t = cs.
Proof. induction cs as [| c r IH]; intros d; [reflexivity|]. cbn [to_angle]. destruct ((c =? 62)%Z && (d =? 0)%Z); [reflexivity|]. specialize (IH (if c =? 91 then d + 1 else if c =? 93 then d - 1 else d)%Z). destruct (to_angle _ r) as [[b s] t]. cbn. now rewrite IH. Qed.
Definition no_end_from (d : Z) (b : list Z) : Prop := forall x y, b = x ++ 62%Z :: y -> (d + depth x <> 0)%Z.
Lemma no_end_0 b : no_end b <-> no_end_from 0 b.
Proof. reflexivity. Qed.
Lemma step_depth (c d : Z) : ((if c =? 91 then d + 1 else if c =? 93 then d - 1 else d) = d + (if c =? 91 then 1 else if c =? 93 then -1 else 0))%Z.
Proof. destruct (c =? 91)%Z, (c =? 93)%Z; lia. Qed.
Lemma no_end_cons d c b : no_end_from d (c :: b) <-> ~ (c = 62%Z /\ d = 0%Z) /\ no_end_from (if c =? 91 then d + 1 else if c =? 93 then d - 1 else d)%Z b.
Proof.
  rewrite step_depth. split.
  - intros H. split; [intros [-> ->]; now apply (H [] b)|]. intros x y E. specialize (H (c :: x) y). cbn [app depth] in H. rewrite E in H. specialize (H eq_refl). lia.
  - intros [N H] x y E. destruct x as [| x0 x]; [injection E as -> ->; cbn; intros D; apply N; split; [reflexivity | lia]|]. injection E as <- ->. specialize (H x y eq_refl). cbn [depth]. lia.
Qed.
Lemma angle_spec cs : forall d, let '(b, s, t) := to_angle d cs in if b then exists s0, s = s0 ++ lit ">" /\ no_end_from d s0 /\ (d + depth s0 = 0)%Z else no_end_from d s /\ t = [].
Proof.
  induction cs as [| c r IH]; intros d; cbn [to_angle]; [split; [intros [|] y E; discriminate | reflexivity]|]. destruct ((c =? 62)%Z && (d =? 0)%Z) eqn:C.
  - apply andb_true_iff in C. rewrite !Z.eqb_eq in C. destruct C as [-> ->]. exists []. split; [reflexivity|]. split; [intros [|] y E; discriminate | reflexivity].
  - assert (N : ~ (c = 62%Z /\ d = 0%Z)) by (intros [-> ->]; discriminate). specialize (IH (if c =? 91 then d + 1 else if c =? 93 then d - 1 else d)%Z). destruct (to_angle _ r) as [[b s] t]. destruct b.
    + destruct IH as (s0 & -> & H1 & H2). exists (c :: s0). split; [reflexivity|]. split; [apply no_end_cons; now split|]. cbn [depth]. rewrite step_depth in H2. lia.
    + destruct IH as [H ->]. split; [apply no_end_cons; now split | reflexivity].
Qed.
Lemma angle_closed t : forall s d, no_end_from d s -> (d + depth s = 0)%Z -> to_angle d (s ++ lit ">" ++ t) = (true, s ++ lit ">", t).
Proof.
  induction s as [| c s IH]; intros d H D.
  - change (lit ">" ++ t) with (62%Z :: t). cbn [app to_angle depth] in *. assert (d = 0%Z) by lia. subst d. reflexivity.
  - apply no_end_cons in H. destruct H as [N H]. cbn [app to_angle depth] in *. destruct ((c =? 62)%Z && (d =? 0)%Z) eqn:C; [apply andb_true_iff in C; rewrite !Z.eqb_eq in C; contradiction|]. rewrite IH; [reflexivity | assumption | rewrite step_depth; lia].
Qed.
Lemma angle_open : forall s d, no_end_from d s -> to_angle d s = (false, s, []).
Proof.
  induction s as [| c s IH]; intros d H; [reflexivity|]. apply no_end_cons in H. destruct H as [N H]. cbn [to_angle]. destruct ((c =? 62)%Z && (d =? 0)%Z) eqn:C; [apply andb_true_iff in C; rewrite !Z.eqb_eq in C; contradiction|]. now rewrite IH.
Qed.

Lemma upper_either c d : (65 <= d <= 90)%Z -> (xml_upper c =? d)%Z = true <-> (c = d \/ c = d + 32)%Z.
Proof. intros D. unfold xml_upper. rewrite Z.eqb_eq. destruct (Z.leb_spec 97 c), (Z.leb_spec c 122); cbn [andb]; lia. Qed.
Lemma cased_spec u : Forall (fun d => (65 <= d <= 90)%Z) u -> forall cs, cased u cs = true <-> exists w r, cs = w ++ r /\ either_case w u.
Proof.
  induction 1 as [| d u Hd _ IH]; intros cs; cbn [folded].
  - split; [intros _; exists [], cs; split; [reflexivity | constructor] | reflexivity].
  - destruct cs as [| c cs]; [split; [discriminate | intros (w & r & E & F); inversion F; subst; discriminate]|]. rewrite andb_true_iff, upper_either, IH by assumption. split.
    + intros (H & w & r & -> & F). exists (c :: w), r. split; [reflexivity | now constructor].
    + intros (w & r & E & F). inversion F as [| c' d' w' u' H F']; subst. injection E as <- ->. split; [assumption|]. now exists w', r.
Qed.
Lemma capitals : Forall (fun d => (65 <= d <= 90)%Z) (lit "DOCTYPE").
Proof. unfold lit. cbn. repeat (apply Forall_cons; [lia|]). apply Forall_nil. Qed.
Lemma either_length w u : either_case w u -> length w = length u.
Proof. intros F. induction F as [|? ? ? ? _ _ IH]; cbn; now rewrite ?IH. Qed.

Lemma prefixb_folded p : forall cs, prefixb p cs = folded (fun c => c) p cs.
Proof. induction p as [| x p IH]; intros [| c cs]; cbn; try reflexivity. now rewrite IH, Z.eqb_sym. Qed.

(** ** The rules one by one: what they read of the characters to come, if anything *)
Definition r_space (cs : list Z) : option (nat * list Z) := match char_run char_is_whitespace cs with [] => None | _ => Some (XWhitespace, drop_run char_is_whitespace cs) end.
Definition r_within (k k' : nat) (o e cs : list Z) : option (nat * list Z) := if prefixb o cs then let '(b, _, t) := until e (skipn (length o) cs) in Some (if b then k else k', t) else None.
Definition r_doctype (cs : list Z) : option (nat * list Z) :=
  if prefixb (lit "<!") cs && cased (lit "DOCTYPE") (skipn 2 cs) then let '(b, _, t) := to_angle 0 (skipn 9 cs) in Some (if b then XDoctype else XError, t) else None.
Definition r_tag (cs : list Z) : option (nat * list Z) :=
  if prefixb (lit "</") cs then Some (XLeftAngleSlash, skipn 2 cs) else if prefixb (lit "<") cs then Some (XLeftAngle, skipn 1 cs)
  else if prefixb (lit "/>") cs then Some (XSlashRightAngle, skipn 2 cs) else if prefixb (lit ">") cs then Some (XRightAngle, skipn 1 cs)
  else if prefixb (lit "=") cs then Some (XEquals, skipn 1 cs) else None.
Definition kind_rest (x : nat * list Z * list Z) : option (nat * list Z) := let '(k, _, t) := x in Some (k, t).
Definition r_refer (cs : list Z) : option (nat * list Z) :=
  if prefixb (lit "&#x") cs then kind_rest (refer XCharRef (lit "&#x") xml_hex (skipn 3 cs))
  else if prefixb (lit "&#") cs then kind_rest (refer XCharRef (lit "&#") ascii_digit_c (skipn 2 cs))
  else if prefixb (lit "&") cs then kind_rest (refer XEntity (lit "&") xml_alnum (skipn 1 cs)) else None.
Definition r_string (cs : list Z) : option (nat * list Z) :=
  match cs with c :: r => if (c =? 34)%Z || (c =? 39)%Z then let '(_, _, t) := until [c] r in Some (XStringLit, t) else None | [] => None end.
Definition r_name (cs : list Z) : option (nat * list Z) :=
  match cs with c :: r => if xml_name_start c then Some (XIdentifier, drop_run xml_name_char r) else None | [] => None end.
Definition r_single (cs : list Z) : option (nat * list Z) :=
  match cs with c :: r => option_map (fun k => (k, r)) (xml_mark c) | [] => None end.
Definition r_text (cs : list Z) : option (nat * list Z) := match char_run plain cs with [] => None | _ => Some (XText, drop_run plain cs) end.

Section Steps.
  Variable (src : source) (text : str).
  Hypothesis Hs : serves src text.
  Notation view := (view src text).
  Notation stepped := (stepped src text).

  Definition same (l l' : lexer) (cs : list Z) : Prop := view l' cs /\ lx_pos l' = lx_pos l /\ lx_toks l' = lx_toks l.
  Definition reading (rule : lexer -> option (bool * lexer)) (cs : list Z) (o : option (nat * list Z)) : Prop :=
    forall l, view l cs -> exists l', rule l = Some (match o with Some _ => true | None => false end, l') /\
      match o with Some (k, r) => stepped l l' (Some k) r | None => same l l' cs end.

  Lemma token_view k l l0 l' r : lx_toks l' = lx_toks l -> lx_pos l0 = lx_pos l -> view l' r -> exists x, xml_token k l0 l' = Some (true, x) /\ stepped l x (Some k) r.
  Proof. intros T O V. eexists. split; [reflexivity|]. split; [exact V|]. cbn [add_token lx_toks]. rewrite T, O. reflexivity. Qed.

  Lemma folded_view fold es : (forall c e, In e es -> fold c = e -> (0 <= c < 128)%Z) -> forall a r l, Forall PyProofs.ascii a -> view l (a ++ r) -> peek_all src l fold (length a) es = folded fold es r.
  Proof.
    intros H. induction es as [| e es IH]; intros a r l A V; [reflexivity|]. cbn [peek_all]. rewrite (view_peek src text Hs l a r A V). destruct r as [| c r]; [reflexivity|]. cbn [hd_error folded].
    destruct (Z.eqb_spec (fold c) e) as [E | _]; [cbn [andb] | reflexivity]. replace (S (length a)) with (length (a ++ [c])) by (rewrite app_length; cbn; lia). apply IH.
    - intros c' e' I. apply H. now right.
    - apply Forall_app. split; [assumption|]. constructor; [|constructor]. apply (H c e); [now left | assumption].
    - now rewrite <- app_assoc.
  Qed.
  Lemma peeks_view es a r l : Forall (fun c => (0 <= c < 128)%Z) es -> Forall PyProofs.ascii a -> view l (a ++ r) -> peek_all src l (fun c => c) (length a) es = prefixb es r.
  Proof. intros E A V. rewrite prefixb_folded. apply folded_view; [|assumption | assumption]. intros c e I <-. now apply (proj1 (Forall_forall _ _) E). Qed.

  (** Moving over ASCII characters at once *)
  Lemma view_over a r l : Forall PyProofs.ascii a -> view l (a ++ r) -> view (lx_advance src l (length a)) r /\ lx_toks (lx_advance src l (length a)) = lx_toks l.
  Proof.
    intros A. revert l. induction A as [| c a Hc A IH]; intros l V; cbn [length app] in *.
    - assert (E : lx_advance src l 0 = l). { destruct V as [[P B] R]. unfold lx_advance, advance_bytes. rewrite Nat.add_0_r. apply is_boundary_le in B. rewrite (Hlen src text Hs). destruct l as [[o st tx] tk]. cbn in *. rewrite Nat.min_l by assumption. reflexivity. }
      rewrite E. now split.
    - destruct (view_advance1 src text Hs l c (a ++ r) Hc V) as (V1 & T1). destruct (IH _ V1) as (V2 & T2).
      assert (E : lx_advance src (lx_advance src l 1) (length a) = lx_advance src l (S (length a))). { unfold lx_advance, advance_bytes. cbn. do 2 f_equal. lia. }
      rewrite E in *. split; [assumption | congruence].
  Qed.

  Lemma space_view cs : reading (xml_whitespace src) cs (r_space cs).
  Proof.
    intros l V. unfold xml_whitespace, scan_whitespace, r_space. destruct (view_take src text Hs l cs char_is_whitespace V) as (l1 & -> & V1 & O1 & T1).
    pose proof (lx_moved_run src text l l1 (char_run char_is_whitespace cs) (drop_run char_is_whitespace cs)) as M. rewrite run_drop in M. specialize (M V V1). unfold lx_moved in M. rewrite M.
    pose proof (run_drop char_is_whitespace cs) as D. destruct (char_run char_is_whitespace cs); (eexists; split; [reflexivity|]).
    - cbn [app] in D. rewrite D in V1. split; [assumption|]. split; [cbn in O1; lia | assumption].
    - split; [assumption|]. cbn [add_token lx_toks]. now rewrite T1.
  Qed.

  Lemma end_view l cs : view l cs -> not_at_end src l = match cs with [] => false | _ => true end.
  Proof.
    intros V. pose proof (view_pos src text l cs V) as P. unfold not_at_end. rewrite (Hlen src text Hs). destruct cs as [| c r]; cbn [encode length] in P.
    - apply Nat.ltb_ge. lia.
    - rewrite app_length, encode_char_length in P. pose proof (char_len_pos c). apply Nat.ltb_lt. lia.
  Qed.

  Definition comment_of := CommentConfig [] (lit "<!--") (lit "-->") false.
  Lemma depth_view : forall fuel cs l, view l cs -> length cs < fuel -> exists l', depth_loop src comment_of fuel 1 l = Some l' /\ view l' (snd (until (lit "-->") cs)) /\ lx_toks l' = lx_toks l.
  Proof.
    induction fuel as [| f IH]; intros cs l V L; [lia|]. cbn [depth_loop]. rewrite (end_view l cs V). destruct cs as [| c r]; cbn [Nat.ltb Nat.leb andb].
    - exists l. now split.
    - cbn [cc_nested comment_of cc_end]. unfold marker_here. change (LexModel.nonempty (lit "-->")) with true. cbv iota. destruct (view_starts src text Hs l _ (lit "-->") ltac:(repeat constructor; lia) V) as (b & l1 & -> & V1 & O1 & T1 & B). destruct b.
      + destruct (proj1 B eq_refl) as (t & Et). rewrite Et in V1. destruct (view_over (lit "-->") t l1 ltac:(repeat constructor; lia) V1) as (V2 & T2). cbn [until]. assert (P : prefixb (lit "-->") (c :: r) = true) by (apply prefixb_spec; now exists t). rewrite P, Et. cbn [snd].
        rewrite skipn_app, skipn_all, Nat.sub_diag. cbn [app skipn]. destruct f as [| f]; [cbn in L; lia|]. cbn [depth_loop Nat.ltb Nat.leb Nat.sub andb]. eexists. split; [reflexivity|]. split; [exact V2 | congruence].
      + destruct (view_current src text Hs l1 _ V1) as (l2 & -> & V2 & O2 & T2). cbn [hd_error]. destruct (view_advance src text Hs l2 c r V2) as (V3 & _ & T3). destruct (IH r _ V3 ltac:(cbn in L; lia)) as (l' & -> & V' & T'). exists l'. split; [reflexivity|]. cbn [until].
        assert (P : prefixb (lit "-->") (c :: r) = false). { apply prefixb_no. intros x E. assert (false = true) by (apply B; now exists x). discriminate. }
        rewrite P. destruct (until (lit "-->") r) as [[b s] t]. split; [exact V' | congruence].
  Qed.
  Lemma comment_view cs : reading (xml_comment src) cs (r_within XComment XComment (lit "<!--") (lit "-->") cs).
  Proof.
    intros l V. unfold xml_comment, scan_comment. fold comment_of. cbn [cc_line comment_of cc_start]. unfold marker_here. change (LexModel.nonempty (lit "<!--")) with true. change (LexModel.nonempty []) with false. cbv iota. unfold r_within.
    destruct (view_starts src text Hs l _ (lit "<!--") ltac:(repeat constructor; lia) V) as (b & l1 & -> & V1 & O1 & T1 & B). destruct b.
    - destruct (proj1 B eq_refl) as (t & ->). assert (P : prefixb (lit "<!--") (lit "<!--" ++ t) = true) by (apply prefixb_spec; now exists t). rewrite P, skipn_app, skipn_all, Nat.sub_diag. cbn [app skipn].
      destruct (view_over (lit "<!--") t l1 ltac:(repeat constructor; lia) V1) as (V2 & T2). destruct (depth_view (scan_fuel src) t _ V2 (view_length no_char no_char src text Hs _ _ V2)) as (l3 & E3 & V3 & T3).
      unfold comment_of in E3 at 1. fold comment_of in E3. rewrite E3. destruct (until (lit "-->") t) as [[b s] u]. eexists. split; [now destruct b|]. destruct b; (split; [exact V3|]; cbn [add_token lx_toks]; rewrite T3, T2, T1; reflexivity).
    - assert (P : prefixb (lit "<!--") cs = false). { apply prefixb_no. intros x E. assert (false = true) by (apply B; now exists x). discriminate. }
      rewrite P. exists l1. split; [reflexivity|]. now split.
  Qed.

  Lemma until_view e0 e : (0 <= e0 < 128)%Z -> Forall (fun c => (0 <= c < 128)%Z) e -> forall fuel cs l, view l cs -> length cs < fuel ->
    exists l', until_loop src e0 e fuel l = Some (fst (fst (until (e0 :: e) cs)), l') /\ view l' (snd (until (e0 :: e) cs)) /\ lx_toks l' = lx_toks l.
  Proof.
    intros A0 A. induction fuel as [| f IH]; intros cs l V L; [lia|]. cbn [until_loop]. rewrite (end_view l cs V). destruct cs as [| c r]; [exists l; now split|].
    destruct (view_current src text Hs l _ V) as (l1 & -> & V1 & O1 & T1). cbn [hd_error].
    assert (P : (c =? e0)%Z && peek_all src l1 (fun c => c) 1 e = prefixb (e0 :: e) (c :: r)).
    { cbn [prefixb]. rewrite (Z.eqb_sym e0). destruct (Z.eqb_spec c e0) as [-> | _]; [|reflexivity]. cbn [andb]. apply (peeks_view e [e0] r l1 A); [repeat constructor; apply A0 | assumption]. }
    rewrite P. cbn [until]. destruct (prefixb (e0 :: e) (c :: r)) eqn:Q.
    - apply prefixb_skip in Q. rewrite Q in V1. destruct (view_over (e0 :: e) _ l1 ltac:(now constructor) V1) as (V2 & T2). eexists. split; [reflexivity|]. split; [exact V2 | exact (eq_trans T2 T1)].
    - destruct (view_advance src text Hs l1 c r V1) as (V2 & _ & T2). destruct (IH r _ V2 ltac:(cbn in L; lia)) as (l' & E & V' & T'). exists l'. rewrite E. destruct (until (e0 :: e) r) as [[b s] t]. split; [reflexivity|]. split; [exact V' | congruence].
  Qed.

  Lemma first_is l cs x : view l cs -> exists l', lx_current src l = (hd_error cs, l') /\ is_char x (hd_error cs) = prefixb [x] cs /\ same l l' cs.
  Proof.
    intros V. destruct (view_current src text Hs l cs V) as (l1 & -> & V1 & O1 & T1). exists l1. split; [reflexivity|]. split; [|now split]. destruct cs as [| c r]; [reflexivity|]. cbn. rewrite (Z.eqb_sym x), andb_true_r. reflexivity.
  Qed.
  Lemma next_is l a r x : Forall PyProofs.ascii a -> view l (a ++ r) -> is_char x (peek_next_n src (lx_cur l) (length a)) = prefixb [x] r.
  Proof. intros A V. rewrite (view_peek src text Hs l a r A V). destruct r as [| c r]; [reflexivity|]. cbn. rewrite (Z.eqb_sym x), andb_true_r. reflexivity. Qed.
  Lemma prefixb_split a b cs : prefixb (a ++ b) cs = prefixb a cs && prefixb b (skipn (length a) cs).
  Proof. revert cs. induction a as [| x a IH]; intros cs; [reflexivity|]. destruct cs as [| c cs]; [reflexivity|]. cbn [app prefixb length skipn]. rewrite IH. now destruct (x =? c)%Z. Qed.

  Lemma is_peek x l n : is_char x (peek_next_n src (lx_cur l) n) = peek_all src l (fun c => c) n [x].
  Proof. cbn [peek_all is_char]. destruct (peek_next_n src (lx_cur l) n); [|reflexivity]. now rewrite andb_true_r. Qed.
  Lemma peek_split l fold a : forall n b, peek_all src l fold n (a ++ b) = peek_all src l fold n a && peek_all src l fold (n + length a) b.
  Proof.
    induction a as [| x a IH]; intros n b; [cbn; now rewrite Nat.add_0_r|]. cbn [app peek_all length]. destruct (peek_next_n src (lx_cur l) n); [|reflexivity]. rewrite IH. replace (S n + length a) with (n + S (length a)) by lia. now rewrite andb_assoc.
  Qed.
  Lemma begins l cs x es : (0 <= x < 128)%Z -> Forall (fun c => (0 <= c < 128)%Z) es -> view l cs -> is_char x (hd_error cs) && peek_all src l (fun c => c) 1 es = prefixb (x :: es) cs.
  Proof.
    intros Ax A V. destruct cs as [| c r]; [reflexivity|]. cbn [hd_error is_char prefixb]. rewrite (Z.eqb_sym x). destruct (Z.eqb_spec c x) as [-> | _]; [|reflexivity]. cbn [andb]. apply (peeks_view es [x] r l A); [repeat constructor; apply Ax | exact V].
  Qed.

  (** The end of the rules with delimiters *)
  Lemma within_view k k' o e0 e cs l l1 : Forall PyProofs.ascii o -> (0 <= e0 < 128)%Z -> Forall (fun c => (0 <= c < 128)%Z) e -> prefixb o cs = true -> same l l1 cs ->
    exists l', match until_loop src e0 e (scan_fuel src) (lx_advance src l1 (length o)) with None => None | Some (closed, l2) => xml_token (if closed then k else k') l l2 end = Some (true, l') /\
      match r_within k k' o (e0 :: e) cs with Some (k, r) => stepped l l' (Some k) r | None => False end.
  Proof.
    intros Ao A0 A P (V1 & O1 & T1). unfold r_within. rewrite P. apply prefixb_skip in P. rewrite P in V1. destruct (view_over o _ l1 Ao V1) as (V2 & T2).
    destruct (until_view e0 e A0 A (scan_fuel src) _ _ V2 (view_length no_char no_char src text Hs _ _ V2)) as (l3 & -> & V3 & T3). destruct (until (e0 :: e) (skipn (length o) cs)) as [[b s] t]. cbn [fst snd] in *.
    destruct (token_view (if b then k else k') l l l3 t) as (x & Ex & Sx); [congruence | reflexivity | assumption|]. exists x. now split.
  Qed.
  Lemma instruction_view cs : reading (xml_instruction src) cs (r_within XInstruction XError (lit "<?") (lit "?>") cs).
  Proof.
    intros l V. unfold xml_instruction. destruct (first_is l cs 60 V) as (l1 & -> & _ & S1). rewrite is_peek, (begins l1 cs 60 [63%Z]); [|lia | repeat constructor; lia | apply S1]. change [60%Z; 63%Z] with (lit "<?"). destruct (prefixb (lit "<?") cs) eqn:P.
    - destruct (within_view XInstruction XError (lit "<?") 63 (lit ">") cs l l1) as (l' & E & W); [repeat constructor; lia | lia | repeat constructor; lia | assumption | assumption|]. change (63%Z :: lit ">") with (lit "?>") in W. change (length (lit "<?")) with 2 in E. exists l'.
      destruct (r_within _ _ _ _ cs) as [[k r]|]; [|contradiction]. now split.
    - unfold r_within. rewrite P. exists l1. now split.
  Qed.
  Lemma cdata_view cs : reading (xml_cdata src) cs (r_within XCData XError (lit "<![CDATA[") (lit "]]>") cs).
  Proof.
    intros l V. unfold xml_cdata. destruct (first_is l cs 60 V) as (l1 & -> & _ & S1). rewrite !is_peek, <- !andb_assoc.
    assert (E : peek_all src l1 (fun c => c) 1 [33%Z] && (peek_all src l1 (fun c => c) 2 [91%Z] && peek_all src l1 (fun c => c) 3 (lit "CDATA[")) = peek_all src l1 (fun c => c) 1 (lit "![CDATA[")).
    { change (lit "![CDATA[") with ([33%Z] ++ [91%Z] ++ lit "CDATA["). now rewrite !peek_split. }
    rewrite E, (begins l1 cs 60 (lit "![CDATA[")); [|lia | repeat constructor; lia | apply S1]. change (60%Z :: lit "![CDATA[") with (lit "<![CDATA["). clear E. destruct (prefixb (lit "<![CDATA[") cs) eqn:P.
    - destruct (within_view XCData XError (lit "<![CDATA[") 93 (lit "]>") cs l l1) as (l' & E & W); [repeat constructor; lia | lia | repeat constructor; lia | assumption | assumption|]. change (93%Z :: lit "]>") with (lit "]]>") in W. change (length (lit "<![CDATA[")) with 9 in E. exists l'.
      destruct (r_within _ _ _ _ cs) as [[k r]|]; [|contradiction]. now split.
    - unfold r_within. rewrite P. exists l1. now split.
  Qed.

  Lemma angle_view : forall fuel cs d l, view l cs -> length cs < fuel ->
    exists l', doctype_loop src fuel d l = Some (fst (fst (to_angle d cs)), l') /\ view l' (snd (to_angle d cs)) /\ lx_toks l' = lx_toks l.
  Proof.
    induction fuel as [| f IH]; intros cs d l V L; [lia|]. cbn [doctype_loop]. rewrite (end_view l cs V). destruct cs as [| c r]; [exists l; now split|].
    destruct (view_current src text Hs l _ V) as (l1 & -> & V1 & O1 & T1). cbn [hd_error]. destruct (view_advance src text Hs l1 c r V1) as (V2 & _ & T2).
    assert (Hc : (c = 91 \/ c = 93 \/ c = 62)%Z -> char_len c = 1) by (intros [-> | [-> | ->]]; reflexivity).
    assert (Go : forall d', exists l', doctype_loop src f d' (lx_advance src l1 (char_len c)) = Some (fst (fst (to_angle d' r)), l') /\ view l' (snd (to_angle d' r)) /\ lx_toks l' = lx_toks l).
    { intros d'. destruct (IH r d' _ V2 ltac:(cbn in L; lia)) as (l' & E & V' & T'). exists l'. split; [assumption|]. split; [assumption | congruence]. }
    cbn [to_angle]. destruct (Z.eqb_spec c 91) as [-> | N1]; [|destruct (Z.eqb_spec c 93) as [-> | N2]; [|destruct (Z.eqb_spec c 62) as [-> | N3]]].
    - cbn [Z.eqb Pos.eqb andb]. rewrite Hc in Go by lia. destruct (Go (d + 1)%Z) as (l' & -> & V' & T'). exists l'. destruct (to_angle (d + 1) r) as [[b s] t]. now split.
    - cbn [Z.eqb Pos.eqb andb]. rewrite Hc in Go by lia. destruct (Go (d - 1)%Z) as (l' & -> & V' & T'). exists l'. destruct (to_angle (d - 1) r) as [[b s] t]. now split.
    - cbn [andb]. rewrite Hc in Go by lia. rewrite Hc in V2, T2 by lia. destruct (d =? 0)%Z.
      + eexists. split; [reflexivity|]. split; [exact V2 | congruence].
      + destruct (Go d) as (l' & -> & V' & T'). exists l'. destruct (to_angle d r) as [[b s] t]. now split.
    - cbn [andb]. destruct (Go d) as (l' & -> & V' & T'). exists l'. destruct (to_angle d r) as [[b s] t]. now split.
  Qed.
  Lemma doctype_view cs : reading (xml_doctype src) cs (r_doctype cs).
  Proof.
    intros l V. unfold xml_doctype, r_doctype. destruct (first_is l cs 60 V) as (l1 & -> & _ & S1). rewrite is_peek, (begins l1 cs 60 [33%Z]); [|lia | repeat constructor; lia | apply S1]. change [60%Z; 33%Z] with (lit "<!"). destruct (prefixb (lit "<!") cs) eqn:P; cbn [andb]; [|exists l1; now split].
    apply prefixb_skip in P. change (length (lit "<!")) with 2 in P. destruct S1 as (V1 & O1 & T1). pose proof V1 as V1'. rewrite P in V1'.
    assert (Up : forall c e, In e (lit "DOCTYPE") -> xml_upper c = e -> (0 <= c < 128)%Z).
    { intros c e I <-. assert (65 <= xml_upper c <= 90)%Z by (cbn in I; lia). unfold xml_upper in *. destruct (Z.leb_spec 97 c), (Z.leb_spec c 122); cbn [andb] in *; lia. }
    change 2 with (length (lit "<!")) at 1. rewrite (folded_view xml_upper (lit "DOCTYPE") Up (lit "<!") (skipn 2 cs) l1); [|repeat constructor; lia | exact V1']. destruct (cased (lit "DOCTYPE") (skipn 2 cs)) eqn:C; [|exists l1; now split].
    destruct (proj1 (cased_spec (lit "DOCTYPE") capitals _) C) as (w & r & Ew & Cw). pose proof (either_length _ _ Cw) as Lw. rewrite Ew, app_assoc in V1', P.
    assert (Aw : Forall PyProofs.ascii (lit "<!" ++ w)).
    { apply Forall_app. split; [repeat constructor; lia|]. clear - Cw. pose proof capitals as F. induction Cw as [| c d w u H _ IH]; [constructor|]. inversion F as [| d' u' Hd Hu]; subst. constructor; [unfold PyProofs.ascii; lia | now apply IH]. }
    destruct (view_over (lit "<!" ++ w) r l1 Aw V1') as (V2 & T2). rewrite app_length, Lw in V2, T2. change (length (lit "<!") + length (lit "DOCTYPE")) with 9 in *. assert (E9 : skipn 9 cs = r).
    { rewrite P. rewrite skipn_app, skipn_all2 by (rewrite app_length, Lw; cbn; lia). rewrite app_length, Lw. reflexivity. }
    rewrite E9. destruct (angle_view (scan_fuel src) r 0%Z _ V2 (view_length no_char no_char src text Hs _ _ V2)) as (l3 & -> & V3 & T3). destruct (to_angle 0 r) as [[b s] t]. cbn [fst snd] in *.
    destruct (token_view (if b then XDoctype else XError) l l l3 t) as (x & Ex & Sx); [congruence | reflexivity | assumption|]. exists x. now split.
  Qed.

  Lemma tag_view cs : reading (xml_tag src) cs (r_tag cs).
  Proof.
    intros l V. unfold xml_tag, r_tag. destruct (view_current src text Hs l cs V) as (l1 & -> & V1 & O1 & T1). destruct cs as [| c r]; cbn [hd_error]; [exists l1; now split|].
    assert (Hd : forall x t, prefixb (x :: t) (c :: r) = (x =? c)%Z && prefixb t r) by reflexivity.
    change (lit "</") with [60; 47]%Z. change (lit "<") with [60%Z]. change (lit "/>") with [47; 62]%Z. change (lit ">") with [62%Z]. change (lit "=") with [61%Z]. rewrite !Hd, !(Z.eqb_sym _ c). cbn [skipn].
    destruct (Z.eqb_spec c 60) as [-> | N1]; [|destruct (Z.eqb_spec c 47) as [-> | N2]; [|destruct (Z.eqb_spec c 62) as [-> | N3]; [|destruct (Z.eqb_spec c 61) as [-> | N4]]]]; cbn [andb prefixb].
    - destruct (view_advance1 src text Hs l1 60 r ltac:(lia) V1) as (V2 & T2). destruct (view_current src text Hs _ r V2) as (l2 & -> & V3 & O3 & T3). destruct r as [| d r]; cbn [hd_error is_char prefixb].
      + destruct (token_view XLeftAngle l l l2 []) as (x & -> & Sx); [congruence | reflexivity | assumption|]. exists x. now split.
      + rewrite (Z.eqb_sym 47). destruct (Z.eqb_spec d 47) as [-> | N]; cbn [andb].
        * destruct (view_advance1 src text Hs l2 47 r ltac:(lia) V3) as (V4 & T4). destruct (token_view XLeftAngleSlash l l _ r (eq_trans T4 (eq_trans T3 (eq_trans T2 T1))) eq_refl V4) as (x & -> & Sx). exists x. now split.
        * destruct (token_view XLeftAngle l l l2 (d :: r)) as (x & -> & Sx); [congruence | reflexivity | assumption|]. exists x. now split.
    - rewrite (view_peek1 src text Hs l1 47 r ltac:(lia) V1). destruct r as [| d r]; cbn [hd_error is_char prefixb]; [exists l1; now split|]. rewrite (Z.eqb_sym 62). destruct (Z.eqb_spec d 62) as [-> | N]; cbn [andb]; [|exists l1; now split].
      destruct (view_over [47; 62]%Z r l1 ltac:(repeat constructor; lia) V1) as (V4 & T4). cbn [length] in V4, T4. destruct (token_view XSlashRightAngle l l _ r (eq_trans T4 T1) eq_refl V4) as (x & -> & Sx). exists x. now split.
    - destruct (view_advance1 src text Hs l1 62 r ltac:(lia) V1) as (V2 & T2). destruct (token_view XRightAngle l l _ r (eq_trans T2 T1) eq_refl V2) as (x & -> & Sx). exists x. now split.
    - destruct (view_advance1 src text Hs l1 61 r ltac:(lia) V1) as (V2 & T2). destruct (token_view XEquals l l _ r (eq_trans T2 T1) eq_refl V2) as (x & -> & Sx). exists x. now split.
    - exists l1. now split.
  Qed.

  Lemma reference_end_view kind o p l l1 cs : (forall c, p c = true -> c <> 59%Z) -> view l1 cs -> lx_toks l1 = lx_toks l ->
    exists x k r, reference_end src kind p l l1 = Some (true, x) /\ kind_rest (refer kind o p cs) = Some (k, r) /\ stepped l x (Some k) r.
  Proof.
    intros H V T. unfold reference_end, refer. destruct (view_take src text Hs l1 cs p V) as (l2 & -> & V2 & O2 & T2). rewrite <- (run_drop p cs) in V. rewrite (lx_moved_run src text l1 l2 _ _ V V2).
    destruct (view_current src text Hs l2 _ V2) as (l3 & -> & V3 & O3 & T3). destruct (char_run p cs) as [| c n] eqn:E; cbn [andb].
    - destruct (token_view XError l l l3 (drop_run p cs)) as (x & Ex & Sx); [congruence | reflexivity | assumption|]. exists x, XError, (drop_run p cs). cbn [app]. now split.
    - destruct (drop_run p cs) as [| d r]; cbn [hd_error is_char].
      + destruct (token_view XError l l l3 []) as (x & Ex & Sx); [congruence | reflexivity | assumption|]. exists x, XError, []. now split.
      + destruct (Z.eqb_spec d 59) as [-> | N].
        * destruct (view_advance1 src text Hs l3 59 r ltac:(lia) V3) as (V4 & T4). destruct (token_view kind l l _ r (eq_trans T4 (eq_trans T3 (eq_trans T2 T))) eq_refl V4) as (x & Ex & Sx). exists x, kind, r. now split.
        * destruct (token_view XError l l l3 (d :: r)) as (x & Ex & Sx); [congruence | reflexivity | assumption|]. exists x, XError, (d :: r). split; [assumption|]. split; [|assumption].
          reflexivity.
  Qed.
  Lemma reference_view cs : reading (xml_reference src) cs (r_refer cs).
  Proof.
    intros l V. unfold xml_reference, r_refer. destruct (view_current src text Hs l cs V) as (l1 & -> & V1 & O1 & T1). destruct cs as [| c r]; cbn [hd_error is_char]; [exists l1; now split|].
    assert (Hd : forall x t, prefixb (x :: t) (c :: r) = (x =? c)%Z && prefixb t r) by reflexivity.
    change (lit "&#x") with [38; 35; 120]%Z. change (lit "&#") with [38; 35]%Z. change (lit "&") with [38%Z]. rewrite !Hd, !(Z.eqb_sym _ c). cbn [skipn].
    destruct (Z.eqb_spec c 38) as [-> | N1]; cbn [andb prefixb]; [|exists l1; now split].
    destruct (view_advance1 src text Hs l1 38 r ltac:(lia) V1) as (V2 & T2). destruct (view_current src text Hs _ r V2) as (l2 & -> & V3 & O3 & T3).
    assert (W : forall kind o p l5 t, (forall c, p c = true -> c <> 59%Z) -> view l5 t -> lx_toks l5 = lx_toks l -> exists x, reference_end src kind p l l5 = Some (match kind_rest (refer kind o p t) with Some _ => true | None => false end, x) /\
      match kind_rest (refer kind o p t) with Some (k, r) => stepped l x (Some k) r | None => same l x (38%Z :: r) end).
    { intros kind o p l5 t Hp V5 T5. destruct (reference_end_view kind o p l l5 t Hp V5 T5) as (x & k & u & E & -> & Sx). exists x. now split. }
    destruct r as [| d r]; cbn [hd_error is_char prefixb].
    - apply W; [|assumption | congruence]. intros c H ->. discriminate.
    - rewrite !(Z.eqb_sym 35). destruct (Z.eqb_spec d 35) as [-> | N]; cbn [andb]; [|apply W; [|assumption | congruence]; intros c H ->; discriminate].
      destruct (view_advance1 src text Hs l2 35 r ltac:(lia) V3) as (V4 & T4). destruct (view_current src text Hs _ r V4) as (l4 & -> & V5 & O5 & T5). destruct r as [| e r]; cbn [hd_error is_char prefixb].
      + apply W; [|assumption | congruence]. intros c H ->. discriminate.
      + rewrite !(Z.eqb_sym 120). destruct (Z.eqb_spec e 120) as [-> | N']; cbn [andb]; [|apply W; [|assumption | congruence]; intros c H ->; discriminate].
        destruct (view_advance1 src text Hs l4 120 r ltac:(lia) V5) as (V6 & T6). apply W; [|assumption | congruence]. intros c H ->. discriminate.
  Qed.

  Lemma body_none q cs : literal_body q None cs -> ~ In q cs.
  Proof. induction 1; [easy | | discriminate]. intros [E | I]; [now apply H | contradiction]. Qed.
  Lemma none_without q cs : ~ In q cs -> without [q] cs.
  Proof. intros N x y E. apply N. rewrite E. apply in_or_app. right. now left. Qed.
  Lemma none_closed q cs : ~ In q cs -> closed_by [q] (cs ++ [q]).
  Proof.
    intros N. split; [now exists cs|]. intros x y. revert cs N. induction x as [| x0 x IH]; intros [| c cs] N E; cbn [app] in E.
    - injection E as ->. reflexivity.
    - injection E as -> _. destruct N. now left.
    - injection E as _ E. destruct x; discriminate.
    - injection E as _ E. apply (IH cs); [|exact E]. intros I. apply N. now right.
  Qed.
  Lemma string_view cs : reading (xml_string src) cs (r_string cs).
  Proof.
    intros l V. unfold xml_string, r_string. destruct (scan_string_spec src text [34; 39]%Z None XStringLit l Hs (proj1 V) I) as (b & l' & -> & P & C).
    assert (Same : forall l', lx_placed src text l' -> declines l l' -> same l l' cs) by (intros x Px [T O]; split; [split; [assumption|]; rewrite O; apply V | now split]). destruct b.
    - destruct C as (L & Em & q & m & Iq & R & Le).
      assert (Q : (q =? 34)%Z || (q =? 39)%Z = true) by (apply orb_true_iff; rewrite !Z.eqb_eq; cbn in Iq; lia).
      destruct Le as [(e & b & R1 & B & R2) | (En & b & R1 & [B | (? & ? & ? & _)])]; [| |discriminate]; apply body_none in B.
      + destruct (view_split src text Hs l cs (lx_pos l') ([q] ++ b ++ [q]) V (proj2 P)) as (x & -> & Rx); [exact (reads_app _ _ _ _ _ _ R (reads_app _ _ _ _ _ _ R1 R2))|].
        cbn [app]. rewrite Q, (until_closed [q] x (b ++ [q])) by (easy || now apply none_closed). exists l'. split; [reflexivity|]. split; [now split | assumption].
      + destruct (view_split src text Hs l cs (lx_pos l') ([q] ++ b) V (proj2 P)) as (x & -> & Rx); [exact (reads_app _ _ _ _ _ _ R R1)|].
        assert (x = []). { apply reads_end in Rx. rewrite En in Rx. destruct x as [| x0 x]; [reflexivity|]. cbn [encode] in Rx. rewrite app_length, encode_char_length in Rx. pose proof (char_len_pos x0). lia. }
        subst x. rewrite app_nil_r. cbn [app]. rewrite Q, (until_open [q] b) by now apply none_without. exists l'. split; [reflexivity|]. split; [now split | assumption].
    - destruct C as (D & N). exists l'. destruct cs as [| c r]; [split; [reflexivity | now apply Same]|]. destruct (view_head src text l c r V) as (m & M & _). specialize (N c m M).
      destruct ((c =? 34)%Z || (c =? 39)%Z) eqn:Q; [|split; [reflexivity | now apply Same]]. destruct N. apply orb_true_iff in Q. rewrite !Z.eqb_eq in Q. cbn. lia.
  Qed.

  Lemma name_view cs : reading (xml_identifier src) cs (r_name cs).
  Proof.
    intros l V. unfold xml_identifier, r_name. destruct (view_current src text Hs l cs V) as (l1 & -> & V1 & O1 & T1). destruct cs as [| c r]; cbn [hd_error]; [exists l1; now split|]. destruct (xml_name_start c); [|exists l1; now split].
    destruct (view_advance src text Hs l1 c r V1) as (V2 & _ & T2). destruct (view_take src text Hs _ r xml_name_char V2) as (l3 & -> & V3 & _ & T3). destruct (token_view XIdentifier l l l3 _ (eq_trans T3 (eq_trans T2 T1)) eq_refl V3) as (x & -> & Sx). exists x. now split.
  Qed.
  Lemma single_view cs : reading (xml_single src) cs (r_single cs).
  Proof.
    intros l V. unfold xml_single, r_single. destruct (view_current src text Hs l cs V) as (l1 & -> & V1 & O1 & T1). destruct cs as [| c r]; cbn [hd_error]; [exists l1; now split|].
    assert (A : forall k, xml_mark c = Some k -> (0 <= c < 128)%Z).
    { intros k. unfold xml_mark. destruct (Z.eqb_spec c 34), (Z.eqb_spec c 39), (Z.eqb_spec c 33), (Z.eqb_spec c 63), (Z.eqb_spec c 38), (Z.eqb_spec c 59); (lia || discriminate). }
    destruct (xml_mark c) as [k|]; cbn [option_map]; [|exists l1; now split]. destruct (view_advance1 src text Hs l1 c r (A k eq_refl) V1) as (V2 & T2). destruct (token_view k l l _ r (eq_trans T2 T1) eq_refl V2) as (x & -> & Sx). exists x. now split.
  Qed.
  Lemma text_view cs : reading (xml_text src) cs (r_text cs).
  Proof.
    intros l V. unfold xml_text, r_text. destruct (token_if_view src text Hs XText plain l cs V) as (l' & E & V' & T & O). fold plain. unfold plain in E at 1. change (fun c => negb (existsb (Z.eqb c) xml_stops)) with plain in *. rewrite E.
    exists l'. pose proof (run_drop plain cs) as D. destruct (char_run plain cs); (split; [reflexivity|]).
    - cbn [app] in D. rewrite D in V'. rewrite app_nil_r in T. split; [assumption|]. split; [now apply O | assumption].
    - now split.
  Qed.

  (** ** A round: the first rule that reads something *)
  Fixpoint first_of (os : list (option (nat * list Z))) : option (nat * list Z) := match os with [] => None | Some x :: _ => Some x | None :: r => first_of r end.
  Lemma same_trans l l1 l2 cs : same l l1 cs -> same l1 l2 cs -> same l l2 cs.
  Proof. intros (_ & O & T) (V' & O' & T'). split; [assumption|]. split; congruence. Qed.
  Lemma rules_view cs : forall rs os, Forall2 (fun r o => reading r cs o) rs os -> reading (try_rules rs) cs (first_of os).
  Proof.
    induction 1 as [| r o rs os H _ IH]; intros l V; cbn [try_rules first_of].
    - exists l. split; [reflexivity|]. now split.
    - destruct (H l V) as (l1 & -> & C). destruct o as [[k t]|]; [exists l1; now split|]. destruct (IH l1 (proj1 C)) as (l2 & E & C2). exists l2. rewrite E. split; [reflexivity|]. destruct (first_of os) as [[k t]|]; [|now apply (same_trans l l1)].
      destruct C as (_ & O1 & T1), C2 as (V2 & T2). split; [assumption|]. now rewrite T2, T1, O1.
  Qed.
  Definition r_all (cs : list Z) : list (option (nat * list Z)) :=
    [r_space cs; r_within XComment XComment (lit "<!--") (lit "-->") cs; r_doctype cs; r_within XCData XError (lit "<![CDATA[") (lit "]]>") cs; r_within XInstruction XError (lit "<?") (lit "?>") cs;
     r_tag cs; r_refer cs; r_string cs; r_name cs; r_single cs; r_text cs].
  Lemma all_view cs : reading (try_rules (xml_rules src)) cs (first_of (r_all cs)).
  Proof.
    apply rules_view. unfold xml_rules, r_all. repeat (constructor; [first [apply space_view | apply comment_view | apply doctype_view | apply cdata_view | apply instruction_view | apply tag_view | apply reference_view | apply string_view | apply name_view | apply single_view | apply text_view]|]). constructor.
  Qed.
End Steps.

(** ** Which rule reads *)
Lemma head_no x t c r : x <> c -> prefixb (x :: t) (c :: r) = false.
Proof. intros N. cbn [prefixb]. destruct (Z.eqb_spec x c); [contradiction | reflexivity]. Qed.
Lemma head_yes x t r : prefixb (x :: t) (x :: r) = prefixb t r.
Proof. cbn [prefixb]. now rewrite Z.eqb_refl. Qed.
Lemma within_no k k' x o e c r : x <> c -> r_within k k' (x :: o) e (c :: r) = None.
Proof. intros N. unfold r_within. now rewrite head_no. Qed.
Lemma within_yes k k' x o e r : r_within k k' (x :: o) e (x :: r) = if prefixb o r then kind_rest (within k k' (x :: o) e (skipn (length o) r)) else None.
Proof. unfold r_within, within. rewrite head_yes. cbn [length skipn]. destruct (prefixb o r); [|reflexivity]. now destruct (until e _) as [[b s] t]. Qed.

Lemma not_less c r : c <> 60%Z ->
  first_of (r_all (c :: r)) = first_of [r_space (c :: r); r_tag (c :: r); r_refer (c :: r); r_string (c :: r); r_name (c :: r); r_single (c :: r); r_text (c :: r)].
Proof.
  intros N. unfold r_all. change (lit "<!--") with (60%Z :: lit "!--"). change (lit "<![CDATA[") with (60%Z :: lit "![CDATA["). change (lit "<?") with (60%Z :: lit "?"). rewrite !within_no by congruence.
  unfold r_doctype. change (lit "<!") with (60%Z :: lit "!"). rewrite head_no by congruence. reflexivity.
Qed.
Lemma plain_no c r : plain c = false -> r_text (c :: r) = None.
Proof. intros H. unfold r_text. cbn [char_run]. now rewrite H. Qed.

Lemma first_less r : first_of (r_all (60%Z :: r)) = kind_rest (xml1 (60%Z :: r)).
Proof.
  unfold r_all. change (lit "<!--") with (60%Z :: lit "!--"). change (lit "<![CDATA[") with (60%Z :: lit "![CDATA["). change (lit "<?") with (60%Z :: lit "?"). rewrite !within_yes.
  cbn [first_of r_space char_run]. unfold r_space. cbn [char_run]. change (char_is_whitespace 60) with false. cbv iota. unfold xml1. change (char_is_whitespace 60) with false. change (60 =? 60)%Z with true. cbv iota.
  change (length (lit "!--")) with 3. change (60%Z :: lit "!--") with (lit "<!--"). destruct (prefixb (lit "!--") r); [unfold within; now destruct (until (lit "-->") (skipn 3 r)) as [[b s] t]|].
  unfold r_doctype. change (lit "<!") with (60%Z :: lit "!"). rewrite head_yes. change (skipn 2 (60%Z :: r)) with (skipn 1 r). change (skipn 9 (60%Z :: r)) with (skipn 8 r). destruct (prefixb (lit "!") r && cased (lit "DOCTYPE") (skipn 1 r)); [now destruct (to_angle 0 (skipn 8 r)) as [[b s] t]|].
  change (length (lit "![CDATA[")) with 8. change (60%Z :: lit "![CDATA[") with (lit "<![CDATA["). destruct (prefixb (lit "![CDATA[") r); [unfold within; now destruct (until (lit "]]>") (skipn 8 r)) as [[b s] t]|].
  change (length (lit "?")) with 1. change (60%Z :: lit "?") with (lit "<?"). destruct (prefixb (lit "?") r); [unfold within; now destruct (until (lit "?>") (skipn 1 r)) as [[b s] t]|].
  unfold r_tag. change (lit "</") with (60%Z :: lit "/"). rewrite head_yes. change (skipn 2 (60%Z :: r)) with (skipn 1 r). destruct (prefixb (lit "/") r); reflexivity.
Qed.
Lemma first_all cs : cs <> [] -> first_of (r_all cs) = kind_rest (xml1 cs).
Proof.
  intros N. destruct cs as [| c r]; [contradiction|]. destruct (Z.eq_dec c 60) as [-> | N60]; [apply first_less|]. rewrite not_less by assumption. unfold xml1, r_space. cbn [first_of char_run].
  destruct (char_is_whitespace c) eqn:Sp; [reflexivity|]. destruct (Z.eqb_spec c 60) as [? | _]; [contradiction|].
  unfold r_tag. change (lit "</") with (60%Z :: lit "/"). change (lit "<") with [60%Z]. rewrite !(head_no 60) by congruence. change (lit "/>") with (47%Z :: lit ">"). change (lit "=") with [61%Z].
  destruct (Z.eqb_spec c 47) as [-> | N47].
  { rewrite head_yes. change (skipn 2 (47%Z :: r)) with (skipn 1 r). destruct (prefixb (lit ">") r); reflexivity. }
  rewrite (head_no 47) by congruence. cbn [andb].
  destruct (Z.eqb_spec c 62) as [-> | N62]; [reflexivity|]. change (lit ">") with [62%Z]. rewrite (head_no 62) by congruence.
  destruct (Z.eqb_spec c 61) as [-> | N61]; [reflexivity|]. rewrite (head_no 61) by congruence.
  unfold r_refer. change (lit "&#x") with (38%Z :: lit "#x"). change (lit "&#") with (38%Z :: lit "#"). change (lit "&") with [38%Z].
  destruct (Z.eqb_spec c 38) as [-> | N38].
  { rewrite !head_yes. change (skipn 3 (38%Z :: r)) with (skipn 2 r). change (skipn 2 (38%Z :: r)) with (skipn 1 r). change (skipn 1 (38%Z :: r)) with r. change (prefixb [] r) with true.
    assert (K : forall x (o : option (nat * list Z)), match kind_rest x with Some y => Some y | None => o end = kind_rest x) by (intros [[? ?] ?] ?; reflexivity).
    destruct (prefixb (lit "#x") r); [apply K|]. destruct (prefixb (lit "#") r); apply K. }
  rewrite !(head_no 38) by congruence. unfold r_string, within. destruct ((c =? 34)%Z || (c =? 39)%Z) eqn:Q; [destruct (until [c] r) as [[b s] t]; now destruct b|].
  unfold r_name. destruct (xml_name_start c) eqn:St; [reflexivity|]. unfold r_single, xml_mark. apply orb_false_iff in Q. destruct Q as [Q1 Q2]. rewrite Q1, Q2.
  destruct (Z.eqb_spec c 33) as [-> | N33]; [reflexivity|]. destruct (Z.eqb_spec c 63) as [-> | N63]; [reflexivity|]. destruct (Z.eqb_spec c 38) as [? | _]; [contradiction|]. destruct (Z.eqb_spec c 59) as [-> | N59]; [reflexivity|].
  unfold r_text. cbn [option_map char_run]. assert (P : plain c = true).
  { apply plainb. apply Z.eqb_neq in Q1, Q2. intros I. cbn in I. assert (c = 32 \/ c = 9 \/ c = 10 \/ c = 13)%Z as W by lia. destruct W as [-> | [-> | [-> | ->]]]; discriminate. }
  rewrite P. reflexivity.
Qed.

(** ** The pieces of the specification *)
Lemma run_plain P p s r : (forall c, p c = true <-> P c) -> run_of P s r -> char_run p (s ++ r) = s /\ drop_run p (s ++ r) = r.
Proof.
  intros H [F E]. destruct (run_unique p s r (s ++ r) eq_refl) as (A & B); [eapply Forall_impl; [|exact F]; intros c; apply H | | split; now symmetry].
  destruct r as [| c r]; [exact I|]. specialize (E c eq_refl). destruct (p c) eqn:Q; [apply H in Q; contradiction | reflexivity].
Qed.
Lemma run_spec P p cs : (forall c, p c = true <-> P c) -> run_of P (char_run p cs) (drop_run p cs).
Proof.
  intros H. split.
  - induction cs as [| c r IH]; [constructor|]. cbn [char_run]. destruct (p c) eqn:Q; [|constructor]. constructor; [now apply H | assumption].
  - intros c E. pose proof (drop_head p cs) as D. destruct (drop_run p cs) as [| d r]; [discriminate|]. injection E as ->. intros I. apply H in I. congruence.
Qed.

Lemma within_spec k k' o e cs : e <> [] -> (o, e, k, k') = (o, e, k, k') -> let '(_, s, t) := within k k' o e cs in s ++ t = o ++ cs.
Proof. intros N _. unfold within. pose proof (until_app e cs) as A. destruct (until e cs) as [[b s] t]. now rewrite <- A, app_assoc. Qed.
Lemma within_piece o e k k' cs : In (o, e, k, k') delimited -> let '(x, s, t) := within k k' o e cs in s ++ t = o ++ cs /\ s <> [] /\ xml_piece (Some x) s t.
Proof.
  intros I. assert (N : e <> [] /\ o <> []) by (cbn in I; decompose [or] I; match goal with H : (_, _, _, _) = _ |- _ => injection H as <- <- _ _ | H : False |- _ => destruct H end; (split; discriminate)).
  destruct N as [N No]. unfold within. pose proof (until_app e cs) as A. pose proof (until_spec e cs N) as U. destruct (until e cs) as [[b s] t]. split; [now rewrite <- A, app_assoc|]. split; [now destruct o|]. destruct b; [now apply (PClosed o e k k')|].
  destruct U as [W ->]. now apply (POpen o e k k').
Qed.
Lemma refer_piece o P p k cs : In (o, P, k) references -> (forall c, p c = true <-> P c) -> o <> [] ->
  (forall o' P' k' x, In (o', P', k') references -> o ++ cs = o' ++ x -> length o' <= length o) ->
  let '(x, s, t) := refer k o p cs in s ++ t = o ++ cs /\ s <> [] /\ xml_piece (Some x) s t.
Proof.
  intros I H N L. unfold refer. pose proof (run_drop p cs) as D. pose proof (run_spec P p cs H) as R.
  assert (Ne : forall x, o ++ x <> []) by (intros x E; apply app_eq_nil in E; now destruct E).
  assert (Bad : forall n r, n ++ r = cs -> run_of P n r -> (n = [] \/ forall x, r <> lit ";" ++ x) -> (o ++ n) ++ r = o ++ cs /\ o ++ n <> [] /\ xml_piece (Some XError) (o ++ n) r).
  { intros n r <- Rn B. split; [now rewrite app_assoc|]. split; [apply Ne|]. apply (PBadReference o P k n r); [assumption | assumption | assumption|]. intros o' P' k' x I' E. now apply (L o' P' k' x). }
  destruct (char_run p cs) as [| c n] eqn:E.
  - apply Bad; [assumption | assumption | now left].
  - destruct (drop_run p cs) as [| d r] eqn:Er; [apply Bad; [assumption | assumption | now right]|]. destruct (Z.eqb_spec d 59) as [-> | Nd].
    + split; [rewrite <- D, <- !app_assoc; reflexivity|]. split; [apply Ne|]. apply (PReference o P k (c :: n) r); [assumption | discriminate | apply R].
    + apply Bad; [assumption | assumption | right]. intros x X. now injection X.
Qed.
Lemma prefix_app o cs : prefixb o cs = true -> o ++ skipn (length o) cs = cs.
Proof. intros H. symmetry. now apply prefixb_skip. Qed.

Lemma less_no (r : list Z) : prefixb (lit "!--") r = false -> prefixb (lit "![CDATA[") r = false -> prefixb (lit "?") r = false ->
  forall o e k k' x, In (o, e, k, k') delimited -> lit "<" ++ r <> o ++ x.
Proof.
  intros P1 P2 P3 o e k k' x I E. pose proof (proj1 (prefixb_no _ _) P1) as Q1. pose proof (proj1 (prefixb_no _ _) P2) as Q2. pose proof (proj1 (prefixb_no _ _) P3) as Q3.
  cbn in I. decompose [or] I; match goal with H : (_, _, _, _) = _ |- _ => injection H as <- _ _ _ | H : False |- _ => destruct H end; cbn [app lit] in E; try discriminate E; injection E as E; subst r; [eapply Q1 | eapply Q2 | eapply Q3]; reflexivity.
Qed.
Lemma doctype_no r : prefixb (lit "!") r && cased (lit "DOCTYPE") (skipn 1 r) = false -> forall w x, doctype_word w -> lit "<" ++ r <> w ++ x.
Proof.
  intros P w x (v & -> & C) E. assert (Er : r = lit "!" ++ v ++ x) by now injection E. subst r. assert (Q : cased (lit "DOCTYPE") (v ++ x) = true) by (apply (cased_spec _ capitals); now exists v, x). change (cased (lit "DOCTYPE") (v ++ x) = false) in P. congruence.
Qed.
Lemma references_ref (o : list Z) : (exists P k, In (o, P, k) references) <-> o = lit "&#x" \/ o = lit "&#" \/ o = lit "&".
Proof.
  split.
  - intros (P & k & I). cbn in I. decompose [or] I; match goal with H : (_, _, _) = _ |- _ => injection H as <- _ _ | H : False |- _ => destruct H end; auto.
  - intros [-> | [-> | ->]]; do 2 eexists; [left | right; left | right; right; left]; reflexivity.
Qed.

Lemma xml1_piece cs : cs <> [] -> let '(k, s, t) := xml1 cs in s ++ t = cs /\ s <> [] /\ xml_piece (Some k) s t.
Proof.
  destruct cs as [| c r]; intros N; [contradiction|]. clear N. unfold xml1. destruct (char_is_whitespace c) eqn:Sp.
  { split; [apply run_drop|]. split; [cbn [char_run]; rewrite Sp; discriminate|]. apply PSpace. apply run_spec. now intros d. }
  assert (In1 : forall o e k k' x, In (o, e, k, k') delimited -> o ++ x = c :: r -> let '(y, s, t) := within k k' o e x in s ++ t = c :: r /\ s <> [] /\ xml_piece (Some y) s t).
  { intros o e k k' x I E. pose proof (within_piece o e k k' x I) as W. destruct (within k k' o e x) as [[y s] t]. now rewrite E in W. }
  assert (Pu : forall s k t, In (s, k) punctuation -> s ++ t = c :: r -> s <> [] -> s ++ t = c :: r /\ s <> [] /\ xml_piece (Some k) s t).
  { intros s k t I E Ns. split; [assumption|]. split; [assumption|]. now apply PPunct. }
  destruct (Z.eqb_spec c 60) as [-> | N60].
  { destruct (prefixb (lit "!--") r) eqn:P1; [apply In1; [now left | now rewrite (prefixb_skip _ _ P1) at 2]|].
    destruct (prefixb (lit "!") r && cased (lit "DOCTYPE") (skipn 1 r)) eqn:P2.
    - apply andb_true_iff in P2. destruct P2 as [P2 P3]. apply prefixb_skip in P2. change (length (lit "!")) with 1 in P2. destruct (proj1 (cased_spec _ capitals _) P3) as (v & x & Ev & C). rewrite Ev in P2. pose proof (either_length _ _ C) as Lv. change (length (lit "DOCTYPE")) with 7 in Lv.
      assert (E8 : skipn 8 r = x). { rewrite P2, app_assoc, skipn_app, skipn_all2 by (rewrite app_length, Lv; cbn; lia). rewrite app_length, Lv. reflexivity. }
      assert (E9 : firstn 9 (60%Z :: r) = lit "<!" ++ v). { rewrite P2. change (60%Z :: lit "!" ++ v ++ x) with (lit "<!" ++ v ++ x). rewrite app_assoc, firstn_app, firstn_all2 by (rewrite app_length, Lv; cbn; lia). rewrite app_length, Lv. cbn [length Nat.sub lit Nat.add firstn]. apply app_nil_r. }
      rewrite E8, E9. pose proof (angle_app x 0) as A. pose proof (angle_spec x 0) as Sa. destruct (to_angle 0 x) as [[b s] t].
      assert (W : doctype_word (lit "<!" ++ v)) by now exists v. split; [rewrite <- app_assoc, A, P2; now rewrite <- app_assoc|]. split; [discriminate|]. destruct b.
      + destruct Sa as (s0 & -> & S1 & S2). now apply PDoctype.
      + destruct Sa as [S1 ->]. now apply PDoctypeOpen.
    - destruct (prefixb (lit "![CDATA[") r) eqn:P3; [apply In1; [now right; left | now rewrite (prefixb_skip _ _ P3) at 2]|].
      destruct (prefixb (lit "?") r) eqn:P4; [apply In1; [now right; right; left | now rewrite (prefixb_skip _ _ P4) at 2]|].
      destruct (prefixb (lit "/") r) eqn:P5; [apply Pu; [now left | now rewrite (prefixb_skip _ _ P5) at 2 | discriminate]|].
      split; [reflexivity|]. split; [discriminate|]. apply PLess; [exact (proj1 (prefixb_no _ _) P5) | now apply less_no | now apply doctype_no]. }
  destruct ((c =? 47)%Z && prefixb (lit ">") r) eqn:P47.
  { apply andb_true_iff in P47. destruct P47 as [E P]. apply Z.eqb_eq in E. subst c. apply Pu; [now right; left | now rewrite (prefixb_skip _ _ P) at 2 | discriminate]. }
  destruct (Z.eqb_spec c 62) as [-> | N62]; [apply Pu; [now do 2 right; left | reflexivity | discriminate]|].
  destruct (Z.eqb_spec c 61) as [-> | N61]; [apply Pu; [now do 3 right; left | reflexivity | discriminate]|].
  destruct (Z.eqb_spec c 38) as [-> | N38].
  { assert (Rf : forall o P p k x, In (o, P, k) references -> (forall c, p c = true <-> P c) -> o <> [] -> o ++ x = 38%Z :: r -> (forall o', o' = lit "&#x" \/ o' = lit "&#" \/ o' = lit "&" -> length o' <= length o \/ prefixb o' (38%Z :: r) = false) ->
      let '(y, s, t) := refer k o p x in s ++ t = 38%Z :: r /\ s <> [] /\ xml_piece (Some y) s t).
    { intros o P p k x I H No E L. pose proof (refer_piece o P p k x I H No) as W. rewrite E in W. apply W. intros o' P' k' y I' E'. destruct (L o'); [apply references_ref; now exists P', k' | assumption|]. exfalso. apply (proj1 (prefixb_no _ _) H0 y). assumption. }
    destruct (prefixb (lit "#x") r) eqn:P1.
    - apply (Rf (lit "&#x") hex); [now left | exact hexb | discriminate | now rewrite (prefixb_skip _ _ P1) at 2 |]. intros o' [-> | [-> | ->]]; left; cbn; lia.
    - destruct (prefixb (lit "#") r) eqn:P2.
      + apply (Rf (lit "&#") digit); [now right; left | exact digitb | discriminate | now rewrite (prefixb_skip _ _ P2) at 2 |]. intros o' [-> | [-> | ->]]; [right | left; cbn; lia | left; cbn; lia]. exact P1.
      + apply (Rf (lit "&") (fun c => letter c \/ digit c)); [now do 2 right; left | exact alnumb | discriminate | reflexivity |]. intros o' [-> | [-> | ->]]; [right | right | left; cbn; lia]; assumption. }
  destruct ((c =? 34)%Z || (c =? 39)%Z) eqn:Q.
  { apply orb_true_iff in Q. rewrite !Z.eqb_eq in Q. destruct Q as [-> | ->]; apply In1; try reflexivity; [now do 3 right; left | now do 4 right; left]. }
  apply orb_false_iff in Q. rewrite !Z.eqb_neq in Q. destruct (xml_name_start c) eqn:St.
  { split; [cbn; now rewrite run_drop|]. split; [discriminate|]. apply PName; [now apply startb|]. apply run_spec. exact nameb. }
  destruct (Z.eqb_spec c 33) as [-> | N33]; [apply Pu; [now do 4 right; left | reflexivity | discriminate]|].
  destruct (Z.eqb_spec c 63) as [-> | N63]; [apply Pu; [now do 5 right; left | reflexivity | discriminate]|].
  destruct (Z.eqb_spec c 59) as [-> | N59]; [apply Pu; [now do 6 right; left | reflexivity | discriminate]|].
  assert (P : plain c = true).
  { apply plainb. intros I. cbn in I. assert (c = 32 \/ c = 9 \/ c = 10 \/ c = 13)%Z as W by lia. destruct W as [-> | [-> | [-> | ->]]]; discriminate. }
  split; [apply run_drop|]. cbn [char_run]. rewrite P. split; [discriminate|]. pose proof (run_drop plain (c :: r)) as D. cbn [char_run] in D. rewrite P in D. apply PText.
  - intros X. unfold space in X. congruence.
  - intros X. apply startb in X. congruence.
  - intros x X. rewrite app_comm_cons, D in X. assert (B : prefixb (lit "/>") (c :: r) = true) by (apply prefixb_spec; now exists x). change ((47 =? c)%Z && prefixb (lit ">") r = true) in B. rewrite Z.eqb_sym in P47. congruence.
  - pose proof (run_spec (fun c => ~ special c) plain (c :: r) plainb) as W. cbn [char_run] in W. now rewrite P in W.
Qed.

Lemma dec_head (c : Z) r : char_is_whitespace c = false -> c <> 60%Z -> (c = 47%Z -> prefixb (lit ">") r = false) -> c <> 62%Z -> c <> 61%Z -> c <> 38%Z -> c <> 34%Z -> c <> 39%Z ->
  xml1 (c :: r) = if xml_name_start c then (XIdentifier, c :: char_run xml_name_char r, drop_run xml_name_char r)
      else if (c =? 33)%Z then (XExclamation, lit "!", r)
      else if (c =? 63)%Z then (XQuestion, lit "?", r)
      else if (c =? 59)%Z then (XSemicolon, lit ";", r)
      else (XText, char_run plain (c :: r), drop_run plain (c :: r)).
Proof.
  intros Sp N1 N2 N3 N4 N5 N6 N7. unfold xml1. rewrite Sp. destruct (Z.eqb_spec c 60) as [? | _]; [contradiction|]. destruct ((c =? 47)%Z && prefixb (lit ">") r) eqn:P; [apply andb_true_iff in P; rewrite Z.eqb_eq in P; destruct P as [E P]; specialize (N2 E); congruence|].
  destruct (Z.eqb_spec c 62) as [? | _]; [contradiction|]. destruct (Z.eqb_spec c 61) as [? | _]; [contradiction|]. destruct (Z.eqb_spec c 38) as [? | _]; [contradiction|]. destruct (Z.eqb_spec c 34) as [? | _]; [contradiction|]. destruct (Z.eqb_spec c 39) as [? | _]; [contradiction|]. reflexivity.
Qed.
Lemma name_start_cases c : name_start c -> char_is_whitespace c = false /\ c <> 60%Z /\ c <> 47%Z /\ c <> 62%Z /\ c <> 61%Z /\ c <> 38%Z /\ c <> 34%Z /\ c <> 39%Z.
Proof.
  intros H. assert (R : (58 <= c <= 122 /\ c <> 60 /\ c <> 61 /\ c <> 62 /\ c <> 133)%Z) by (unfold name_start, letter in H; lia). split; [|lia].
  unfold char_is_whitespace. repeat match goal with |- context [(?a =? ?b)%Z] => destruct (Z.eqb_spec a b); [lia|] | |- context [(?a <=? ?b)%Z] => destruct (Z.leb_spec a b); try lia end; reflexivity.
Qed.
Lemma delimited_xml1 o e k k' x : In (o, e, k, k') delimited -> xml1 (o ++ x) = within k k' o e x.
Proof.
  intros I. cbn [In delimited] in I. decompose [or] I; match goal with H : (_, _, _, _) = _ |- _ => injection H as <- <- <- <- | H : False |- _ => destruct H end; reflexivity.
Qed.
Lemma doctype_xml1 v x : either_case v (lit "DOCTYPE") -> xml1 (lit "<!" ++ v ++ x) = let '(b, s, t) := to_angle 0 x in (if b then XDoctype else XError, (lit "<!" ++ v) ++ s, t).
Proof.
  intros C. pose proof (either_length _ _ C) as Lv. change (length (lit "DOCTYPE")) with 7 in Lv.
  assert (Q : cased (lit "DOCTYPE") (v ++ x) = true) by (apply (cased_spec _ capitals); now exists v, x).
  assert (P1 : prefixb (lit "!--") (lit "!" ++ v ++ x) = false).
  { destruct v as [| d v]; [discriminate|]. change (prefixb (lit "!--") (lit "!" ++ (d :: v) ++ x)) with ((45 =? d)%Z && prefixb (lit "-") (v ++ x)). inversion C as [| ? ? ? ? Hd _]; subst. destruct (Z.eqb_spec 45 d) as [E |]; [|reflexivity]. cbn in Hd. lia. }
  change (lit "<!" ++ v ++ x) with (60%Z :: lit "!" ++ v ++ x). unfold xml1. change (char_is_whitespace 60) with false. change (60 =? 60)%Z with true. cbv iota. rewrite P1.
  change (skipn 1 (lit "!" ++ v ++ x)) with (v ++ x). rewrite Q. change (prefixb (lit "!") (lit "!" ++ v ++ x)) with true. cbn [andb].
  assert (E8 : skipn 8 (lit "!" ++ v ++ x) = x). { rewrite app_assoc, skipn_app, skipn_all2 by (rewrite app_length, Lv; cbn; lia). rewrite app_length, Lv. reflexivity. }
  assert (E9 : firstn 9 (60%Z :: lit "!" ++ v ++ x) = lit "<!" ++ v). { change (60%Z :: lit "!" ++ v ++ x) with (lit "<!" ++ v ++ x). rewrite app_assoc, firstn_app, firstn_all2 by (rewrite app_length, Lv; cbn; lia). rewrite app_length, Lv. cbn [length Nat.sub lit Nat.add firstn]. apply app_nil_r. }
  rewrite E8, E9. reflexivity.
Qed.
(** The class of characters of a reference *)
Definition class_of (k : nat) (o : list Z) : Z -> bool := if k =? XEntity then xml_alnum else if length o =? 3 then xml_hex else ascii_digit_c.
Lemma class_ok o P k : In (o, P, k) references -> forall c, class_of k o c = true <-> P c.
Proof. intros I. cbn [In references] in I. decompose [or] I; match goal with H : (_, _, _) = _ |- _ => injection H as <- <- <- | H : False |- _ => destruct H end; [exact hexb | exact digitb | exact alnumb]. Qed.
Lemma refer_xml1 o P k x : In (o, P, k) references -> (forall o' P' k' y, In (o', P', k') references -> o ++ x = o' ++ y -> length o' <= length o) -> xml1 (o ++ x) = refer k o (class_of k o) x.
Proof.
  intros I L. cbn [In references] in I. decompose [or] I; match goal with H : (_, _, _) = _ |- _ => injection H as <- <- <- | H : False |- _ => destruct H end.
  - reflexivity.
  - assert (P1 : prefixb (lit "#x") (lit "#" ++ x) = false).
    { apply prefixb_no. intros y E. specialize (L (lit "&#x") hex XCharRef y (or_introl eq_refl)). assert (K : lit "&#" ++ x = lit "&#x" ++ y) by exact (f_equal (cons 38%Z) E). apply L in K. cbn in K. lia. }
    change [38%Z; 35%Z] with (lit "&#"). change (lit "&#" ++ x) with (38%Z :: (lit "#" ++ x)). remember (lit "#" ++ x) as t eqn:Et. unfold xml1. change (char_is_whitespace 38) with false. cbn [Z.eqb Pos.eqb andb]. rewrite P1, Et. reflexivity.
  - assert (P2 : prefixb (lit "#") x = false).
    { apply prefixb_no. intros y ->. specialize (L (lit "&#") digit XCharRef y (or_intror (or_introl eq_refl)) eq_refl). cbn in L. lia. }
    assert (P1 : prefixb (lit "#x") x = false). { apply prefixb_no. intros y ->. discriminate P2. }
    change [38%Z] with (lit "&"). change (lit "&" ++ x) with (38%Z :: x). unfold xml1. change (char_is_whitespace 38) with false. cbn [Z.eqb Pos.eqb andb]. rewrite P1, P2. reflexivity.
Qed.
Lemma class_semicolon k o : class_of k o 59%Z = false.
Proof. unfold class_of. now destruct (k =? XEntity), (length o =? 3). Qed.

Lemma piece_xml1 k s r : xml_piece k s r -> s <> [] -> exists k0, k = Some k0 /\ xml1 (s ++ r) = (k0, s, r).
Proof.
  intros H N. destruct H as [s r R | o e k k' b r I C | o e k k' b I W | w b r D B Z0 | w b D B | o P k n r I Nn F | o P k n r I R B L | c s r Sc R | s k r I | r N1 N2 N3 | c s r Nsp Nst Nsl R]; (eexists; split; [reflexivity|]).
  - pose proof (run_plain space char_is_whitespace s r (fun c => iff_refl _) R) as [E1 E2]. destruct s as [| c s]; [contradiction|]. destruct R as [F _]. inversion F as [| ? ? Hc _]; subst. unfold xml1. cbn [app]. cbn [app] in E1, E2. rewrite Hc, E1, E2. reflexivity.
  - rewrite <- app_assoc, (delimited_xml1 o e k k') by assumption. unfold within. rewrite until_closed; [reflexivity | | assumption]. cbn in I. decompose [or] I; match goal with H : (_, _, _, _) = _ |- _ => injection H as _ <- _ _ | H : False |- _ => destruct H end; discriminate.
  - rewrite app_nil_r, (delimited_xml1 o e k k') by assumption. unfold within. now rewrite until_open.
  - destruct D as (v & -> & C). replace (((lit "<!" ++ v) ++ b ++ lit ">") ++ r) with (lit "<!" ++ v ++ b ++ lit ">" ++ r) by now rewrite <- !app_assoc. rewrite doctype_xml1, angle_closed by (assumption || lia). reflexivity.
  - destruct D as (v & -> & C). rewrite app_nil_r, <- app_assoc. rewrite doctype_xml1, angle_open by assumption. now rewrite <- app_assoc.
  - rewrite <- !app_assoc, (refer_xml1 o P k).
    + unfold refer. destruct (run_plain P (class_of k o) n (lit ";" ++ r) (class_ok o P k I)) as [-> ->].
      { split; [assumption|]. intros c E. injection E as <-. intros X. apply (class_ok o P k I) in X. now rewrite class_semicolon in X. }
      destruct n; [contradiction|]. reflexivity.
    + assumption.
    + intros o' P' k' y I' E. destruct n as [| c n]; [contradiction|]. inversion F as [| ? ? Hc _]; subst. cbn [In references] in I, I'.
      decompose [or] I; match goal with H : (_, _, _) = _ |- _ => injection H as <- <- <- | H : False |- _ => destruct H end;
      decompose [or] I'; match goal with H : (_, _, _) = _ |- _ => injection H as <- <- <- | H : False |- _ => destruct H end; try (cbn; lia); cbn [app lit] in E; injection E; intros; subst; unfold digit, letter in Hc; lia.
  - rewrite <- app_assoc, (refer_xml1 o P k); [|assumption | exact L]. unfold refer. destruct (run_plain P (class_of k o) n r (class_ok o P k I) R) as [-> ->]. destruct n as [| c n]; [reflexivity|]. destruct B as [B | B]; [discriminate|]. destruct r as [| d r]; [reflexivity|].
    destruct (Z.eqb_spec d 59) as [-> | _]; [now destruct (B r) | reflexivity].
  - destruct (name_start_cases c Sc) as (Sp & ? & ? & ? & ? & ? & ? & ?). cbn [app]. rewrite dec_head by (assumption || easy). rewrite (proj2 (startb c) Sc). destruct (run_plain name_char xml_name_char s r nameb R) as [-> ->]. reflexivity.
  - cbn [In punctuation] in I. decompose [or] I; match goal with H : (_, _) = _ |- _ => injection H as <- <- | H : False |- _ => destruct H end; reflexivity.
  - change (lit "<" ++ r) with (60%Z :: r) in *. unfold xml1. change (char_is_whitespace 60) with false. change (60 =? 60)%Z with true. cbv iota.
    assert (P1 : prefixb (lit "!--") r = false) by (apply prefixb_no; intros x ->; now apply (N2 (lit "<!--") (lit "-->") XComment XComment x (or_introl eq_refl))).
    assert (P2 : prefixb (lit "![CDATA[") r = false) by (apply prefixb_no; intros x ->; now apply (N2 (lit "<![CDATA[") (lit "]]>") XCData XError x (or_intror (or_introl eq_refl)))).
    assert (P3 : prefixb (lit "?") r = false) by (apply prefixb_no; intros x ->; now apply (N2 (lit "<?") (lit "?>") XInstruction XError x (or_intror (or_intror (or_introl eq_refl))))).
    assert (P4 : prefixb (lit "/") r = false) by (apply prefixb_no; exact N1).
    assert (P5 : prefixb (lit "!") r && cased (lit "DOCTYPE") (skipn 1 r) = false).
    { apply not_true_iff_false. intros T. apply andb_true_iff in T. destruct T as [T1 T2]. apply prefixb_skip in T1. change (length (lit "!")) with 1 in T1. destruct (proj1 (cased_spec _ capitals _) T2) as (v & x & Ev & C). apply (N3 (lit "<!" ++ v) x); [now exists v|]. rewrite T1, Ev, <- app_assoc. reflexivity. }
    rewrite P1, P2, P3, P4, P5. reflexivity.
  - pose proof (run_plain _ plain (c :: s) r plainb R) as [E1 E2]. cbn [app] in *. destruct R as [F _]. inversion F as [| ? ? Hc _]; subst.
    assert (Ne : forall d, In d [32; 9; 10; 13; 60; 62; 61; 34; 39; 33; 63; 38; 59]%Z -> c <> d) by (intros d Id ->; contradiction).
    rewrite dec_head; try (apply Ne; cbn; tauto).
    + destruct (xml_name_start c) eqn:St; [apply startb in St; contradiction|]. destruct (Z.eqb_spec c 33) as [E |]; [apply Ne in E; [contradiction | cbn; tauto]|]. destruct (Z.eqb_spec c 63) as [E |]; [apply Ne in E; [contradiction | cbn; tauto]|]. destruct (Z.eqb_spec c 59) as [E |]; [apply Ne in E; [contradiction | cbn; tauto]|].
      now rewrite E1, E2.
    + now apply not_true_iff_false.
    + intros ->. apply prefixb_no. intros x E. apply (Nsl x). now rewrite E.
Qed.

(** ** The tokens of a text *)
Lemma xml_pieces_unique k s r k' s' r' : s ++ r = s' ++ r' -> s <> [] -> s' <> [] -> xml_piece k s r -> xml_piece k' s' r' -> k = k' /\ s = s'.
Proof.
  intros E N N' P P'. destruct (piece_xml1 _ _ _ P N) as (x & -> & X). destruct (piece_xml1 _ _ _ P' N') as (x' & -> & X'). rewrite E in X. rewrite X in X'. injection X' as -> -> _. now split.
Qed.
Lemma xml_lex_cut cs : Forall is_scalar cs -> exists ps, cut xml_piece cs ps /\ xml_lex (encode cs) = Some (spans 0 ps ++ [Token XError (length (encode cs)) (length (encode cs))]).
Proof.
  intros F. unfold xml_lex. set (text := encode cs). assert (Hs : serves (flat_source text) text) by (apply flat_serves; now exists cs).
  apply (lex_all_view (flat_source text) text _ xml_piece Hs); [|now apply all_reads].
  intros l c r V. unfold guarded_round. destruct (all_view (flat_source text) text Hs (c :: r) l V) as (l' & -> & C). rewrite first_all in * by discriminate. pose proof (xml1_piece (c :: r) ltac:(discriminate)) as W. destruct (xml1 (c :: r)) as [[k s] t]. cbn [kind_rest] in *.
  destruct W as (E & N & P). exists l', (Some k), s, t. split; [reflexivity|]. split; [now symmetry|]. split; [assumption|]. split; assumption.
Qed.
