(** The Python lexer. *)
From Verif Require Import Base Utf8 Utf8Facts ScanSpec CursorModel CursorSpec CursorProofs RopeModel LexModel LexSpec LexProofs LexLoopProofs.
From Verif Require Import JsonLangSpec JsonLexProofs LangModel LangSpec LangLexProofs PyModel PySpec.

(** ** Classes *)
Lemma blankb c : py_blank c = true <-> blank c.
Proof. unfold py_blank, blank. rewrite orb_true_iff, !Z.eqb_eq. tauto. Qed.
Lemma eolb c : py_eol c = true <-> eol c.
Proof. unfold py_eol, eol. rewrite orb_true_iff, !Z.eqb_eq. tauto. Qed.
Lemma digitb c : py_digit c = true <-> digit c.
Proof. unfold py_digit, digit. rewrite andb_true_iff, !Z.leb_le. tauto. Qed.
Lemma letterb c : py_letter c = true <-> letter c.
Proof. unfold py_letter, letter. rewrite !orb_true_iff, !andb_true_iff, !Z.leb_le, Z.eqb_eq. tauto. Qed.
Lemma wordyb c : py_word_char c = true <-> wordy c.
Proof. unfold py_word_char, wordy. rewrite orb_true_iff, letterb, digitb. tauto. Qed.
Lemma numeralb c : (py_digit c || (c =? 46)%Z) = true <-> numeral c.
Proof. unfold numeral. rewrite orb_true_iff, digitb, Z.eqb_eq. tauto. Qed.
Lemma quoteb c : py_quote c = true <-> quote c.
Proof. unfold py_quote, quote. rewrite orb_true_iff, !Z.eqb_eq. tauto. Qed.
Lemma prefixb c : py_prefix c = true <-> In c (map fst prefixes).
Proof. unfold py_prefix. rewrite !orb_true_iff, !Z.eqb_eq. cbn. intuition lia. Qed.
Lemma not_true (b : bool) P : (b = true <-> P) -> b = false -> ~ P.
Proof. intros H E Hp. apply H in Hp. congruence. Qed.
Lemma is_false (b : bool) P : (b = true <-> P) -> ~ P -> b = false.
Proof. destruct b; [|reflexivity]. intros H N. now destruct N; apply H. Qed.

Lemma run_all p (P : Z -> Prop) cs : (forall c, p c = true <-> P c) -> Forall P (char_run p cs).
Proof. intros H. induction cs as [| c r IH]; cbn [char_run]; [constructor|]. destruct (p c) eqn:E; constructor; [now apply H | assumption]. Qed.
Lemma run_ends p (P : Z -> Prop) cs : (forall c, p c = true <-> P c) -> ends P (drop_run p cs).
Proof. intros H c Hc. pose proof (drop_head p cs) as D. destruct (drop_run p cs) as [| d r]; [discriminate|]. injection Hc as ->. apply (not_true _ _ (H c) D). Qed.

(** The starts of the pieces of the tables and their kinds *)
Definition special (k : nat) : bool := (k =? PyWhitespace) || (k =? PyNewline) || (k =? PyComment).
Definition bracket (k : nat) : bool := open_mark k || close_mark k.
Definition sober (c : Z) : bool := negb (py_blank c || py_eol c || (c =? 35)%Z).
Lemma in_check {A} (f : A -> bool) (l : list A) x : forallb f l = true -> In x l -> f x = true.
Proof. intros H I. now apply (proj1 (forallb_forall f l) H). Qed.

Lemma reserved_kind w k : In (w, k) reserved -> special k = false /\ bracket k = false.
Proof.
  intros I. assert (H : negb (special (snd (w, k))) && negb (bracket (snd (w, k))) = true) by (apply (in_check (fun e => negb (special (snd e)) && negb (bracket (snd e))) reserved); [vm_compute; reflexivity | assumption]).
  cbn [snd] in H. now destruct (special k), (bracket k).
Qed.
Lemma word_kind w k : word_of w k -> special k = false /\ bracket k = false.
Proof. intros [I | [-> _]]; [now apply (reserved_kind w) | now split]. Qed.
Lemma prefix_kind p k : In (p, k) prefixes -> special k = false /\ bracket k = false /\ letter p.
Proof. intros I. cbn in I. repeat (destruct I as [I | I]; [injection I as <- <-; split; [reflexivity|]; split; [reflexivity | unfold letter; lia]|]). contradiction. Qed.
Lemma operator_kind o k : In (o, k) operators -> special k = false /\ bracket k = false /\ exists c s, o = c :: s /\ py_is_operator c = true.
Proof.
  intros I. pose proof (in_check (fun e : list Z * nat => negb (special (snd e)) && negb (bracket (snd e)) && match fst e with [] => false | c :: _ => py_is_operator c end) operators (o, k) (eq_refl true) I) as H.
  cbn [fst snd] in H. destruct (special k), (bracket k); try discriminate. split; [reflexivity|]. split; [reflexivity|]. destruct o as [| c s]; [discriminate|]. now exists c, s.
Qed.
Lemma mark_kind c k : In (c, k) marks -> special k = false /\ (py_is_open c = open_mark k) /\ (py_is_close c = close_mark k) /\ (py_is_open c || py_is_close c || py_is_punct c) = true.
Proof. intros I. cbn in I. repeat (destruct I as [I | I]; [injection I as <- <-; now vm_compute|]). contradiction. Qed.

Lemma py_is_operator_in c : py_is_operator c = true <-> In [c] (map fst operators).
Proof.
  let t := eval vm_compute in (map fst operators) in change (map fst operators) with t.
  unfold py_is_operator. rewrite !orb_true_iff, !Z.eqb_eq. cbn [In]. split.
  - intros H. repeat (destruct H as [H | H]); subst c; tauto.
  - intros H. repeat (destruct H as [H | H]; [try discriminate; injection H as <-; tauto|]). contradiction.
Qed.
Lemma py_marks_in c : (py_is_open c || py_is_close c || py_is_punct c) = true <-> In c (map fst marks).
Proof. unfold py_is_open, py_is_close, py_is_punct. rewrite !orb_true_iff, !Z.eqb_eq. cbn. intuition lia. Qed.

(** What the first character of a piece says about its kind *)
Definition ascii (c : Z) : Prop := (0 <= c < 128)%Z.
Lemma sober_letter c : letter c -> sober c = true.
Proof. unfold sober, py_blank, py_eol, letter. intros H. rewrite negb_true_iff, !orb_false_iff, !Z.eqb_neq. lia. Qed.
Lemma sober_operator c : py_is_operator c = true -> sober c = true.
Proof. unfold sober, py_blank, py_eol, py_is_operator. rewrite !orb_true_iff, !Z.eqb_eq, negb_true_iff, !orb_false_iff, !Z.eqb_neq. lia. Qed.
Lemma sober_mark c : (py_is_open c || py_is_close c || py_is_punct c) = true -> sober c = true.
Proof. unfold sober, py_blank, py_eol, py_is_open, py_is_close, py_is_punct. rewrite !orb_true_iff, !Z.eqb_eq, negb_true_iff, !orb_false_iff, !Z.eqb_neq. lia. Qed.

Lemma piece_nonempty k s r : py_piece k s r -> s <> [].
Proof. intros P. destruct P; try discriminate. match goal with I : In _ operators |- _ => apply operator_kind in I; destruct I as (_ & _ & c & s & -> & _) end. discriminate. Qed.

Lemma piece_head k c s r : py_piece (Some k) (c :: s) r ->
  (k =? PyWhitespace) = py_blank c /\ (k =? PyNewline) = py_eol c /\ (k =? PyComment) = (c =? 35)%Z.
Proof.
  assert (Gen : forall k, special k = false -> sober c = true -> (k =? PyWhitespace) = py_blank c /\ (k =? PyNewline) = py_eol c /\ (k =? PyComment) = (c =? 35)%Z).
  { unfold special, sober. intros k0 H. rewrite negb_true_iff. apply orb_false_iff in H as [H H3]. apply orb_false_iff in H as [H1 H2]. intros G. apply orb_false_iff in G as [G G3]. apply orb_false_iff in G as [G1 G2]. rewrite H1, H2, H3, G1, G2, G3. split; [reflexivity | split; reflexivity]. }
  intros P. remember (Some k) as k0 eqn:Ek. remember (c :: s) as s0 eqn:Es. destruct P as [c0 s0 r B F E | r | r | r E | s0 r F E | c0 s0 r D F E | c0 s0 k1 r Lt F E Wd Np | q s0 r Q O | p k1 q s0 r I Q O | o k1 r I Lo | c0 k1 r I | c0 r N1 N2 N3 N4 N5 N6 N7 N8]; injection Ek as <-; try (injection Es as <- <-).
  - split; [symmetry; now apply blankb|]. destruct B as [-> | ->]; now split.
  - now split; [|split].
  - now split; [|split].
  - now split; [|split].
  - now split; [|split].
  - apply Gen; [reflexivity|]. unfold sober, py_blank, py_eol, digit in *. rewrite negb_true_iff, !orb_false_iff, !Z.eqb_neq. lia.
  - apply word_kind in Wd. now apply Gen; [|apply sober_letter].
  - apply Gen; [reflexivity|]. destruct Q as [-> | ->]; reflexivity.
  - apply prefix_kind in I as (I1 & _ & I3). now apply Gen; [|apply sober_letter].
  - apply operator_kind in I as (I1 & _ & c1 & s1 & E1 & I3). rewrite E1 in Es. injection Es as -> ->. now apply Gen; [|apply sober_operator].
  - apply mark_kind in I as (I1 & _ & _ & I3). now apply Gen; [|apply sober_mark].
  - apply Gen; [reflexivity|]. unfold sober. rewrite (is_false _ _ (blankb _) N1), (is_false _ _ (eolb _) N2). apply Z.eqb_neq in N3. now rewrite N3.
Qed.

Section Steps.
  Variable (src : source) (text : str).
  Hypothesis Hs : serves src text.
  Notation view := (view src text).

  Lemma get_view off cs : is_boundary text off = true -> reads text off (length text) cs -> get_char_at src off = hd_error cs.
  Proof.
    intros B R. pose proof (get_char_at_spec src text off Hs B) as C. apply (char_at_unique text off); [assumption|]. destruct cs as [| c cs]; cbn [hd_error char_at].
    - apply reads_end in R. cbn in R. lia.
    - apply reads_cons in R. destruct R as (m & M & _). now exists m.
  Qed.
  Lemma reads_skip off a r : Forall ascii a -> is_boundary text off = true -> reads text off (length text) (a ++ r) -> is_boundary text (off + length a) = true /\ reads text (off + length a) (length text) r.
  Proof.
    intros A. revert off. induction A as [| c a Ac _ IH]; intros off B R; cbn [app length] in *; [now rewrite Nat.add_0_r|].
    apply reads_cons in R. destruct R as (m & M & R). pose proof (reads_end _ _ _ _ M) as Em. pose proof (reads_boundary text off m [c] (Hv src text Hs) B M) as Bm.
    assert (length (encode [c]) = 1). { destruct (ascii_encode [c]) as [-> _]; [now constructor | reflexivity]. }
    replace (off + S (length a)) with (m + length a) by lia. now apply IH.
  Qed.
  Lemma view_peek l a r : Forall ascii a -> view l (a ++ r) -> peek_next_n src (lx_cur l) (length a) = hd_error r.
  Proof.
    intros A V. destruct (reads_skip (lx_pos l) a r A (proj2 (proj1 V)) (proj2 V)) as (B & R). pose proof (peek_next_n_spec src text (lx_cur l) (length a) Hs (proj1 V) B) as C. change (cu_off (lx_cur l)) with (lx_pos l) in C.
    apply (char_at_unique text (lx_pos l + length a)); [assumption|]. destruct r as [| c r]; cbn [hd_error char_at].
    - apply reads_end in R. cbn in R. lia.
    - apply reads_cons in R. destruct R as (m & M & _). now exists m.
  Qed.
  Lemma is_view p l cs : view l cs -> exists l', py_is src p l = (match cs with c :: _ => p c | [] => false end, l') /\ view l' cs /\ lx_pos l' = lx_pos l /\ lx_toks l' = lx_toks l.
  Proof. intros V. unfold py_is. destruct (view_current src text Hs l cs V) as (l1 & -> & V1 & O1 & T1). exists l1. destruct cs; now split. Qed.

  Definition starts2 (q : Z) (cs : list Z) : bool := match cs with a :: b :: _ => ((a =? q) && (b =? q))%Z | _ => false end.
  Lemma starts2_spec q cs : starts2 q cs = true <-> exists x, cs = q :: q :: x.
  Proof.
    destruct cs as [| a [| b x]]; cbn [starts2]; [split; [discriminate | now intros (y & ?)] | split; [discriminate | now intros (y & ?)] |]. rewrite andb_true_iff, !Z.eqb_eq. split; [intros [-> ->]; now exists x | intros (y & E)].
    injection E as -> -> _. now split.
  Qed.
  Lemma quotes_view q a cs l : ascii q -> Forall ascii a -> view l (a ++ cs) -> py_quotes src q (length a) l = starts2 q cs.
  Proof.
    intros Aq A V. unfold py_quotes. rewrite (view_peek l a cs A V). destruct cs as [| c1 cs]; [reflexivity|]. cbn [hd_error starts2]. destruct (Z.eqb_spec c1 q) as [-> | N].
    - replace (length a + 1) with (length (a ++ [q])) by (rewrite app_length; cbn; lia). rewrite (view_peek l (a ++ [q]) cs); [|apply Forall_app; split; [assumption | now constructor] | now rewrite <- app_assoc]. destruct cs as [| c2 cs]; reflexivity.
    - destruct (peek_next_n src (lx_cur l) (length a + 1)); destruct cs; reflexivity.
  Qed.

  (** A piece is read and becomes a token of kind [tk]. *)
  Definition did (l l' : lexer) (k tk : nat) (cs : list Z) : Prop :=
    exists s r, cs = s ++ r /\ py_piece (Some k) s r /\ view l' r /\ lx_toks l' = lx_toks l ++ [Token tk (lx_pos l) (lx_pos l')].

  Lemma white_view l c r : view l (c :: r) -> blank c -> exists l', py_whitespace src l = Some l' /\ did l l' PyWhitespace PyWhitespace (c :: r).
  Proof.
    intros V B. unfold py_whitespace. pose proof (token_if_view src text Hs PyWhitespace py_blank l (c :: r) V) as H. destruct H as (l' & E & V' & T & _).
    exists l'. split; [destruct (lx_take_while src (scan_fuel src) py_blank l); [|discriminate]; cbn [option_map] in *; injection E as E; now rewrite E|].
    pose proof (run_all py_blank blank (c :: r) blankb) as F. cbn [char_run] in T, F. apply blankb in B. rewrite B in T, F. exists (char_run py_blank (c :: r)), (drop_run py_blank (c :: r)). split; [now rewrite run_drop|].
    cbn [char_run]. rewrite B. split; [|now split]. inversion F; subst. constructor; [assumption | assumption | apply run_ends, blankb].
  Qed.

  Lemma newline_view depth l c r : view l (c :: r) -> eol c -> did l (py_newline src depth l) PyNewline (if 0 <? depth then PyWhitespace else PyNewline) (c :: r).
  Proof.
    intros V B. unfold py_newline. destruct (is_view (Z.eqb 10) l _ V) as (l1 & -> & V1 & O1 & T1). set (kk := if 0 <? depth then PyWhitespace else PyNewline). destruct B as [-> | ->].
    - change (10 =? 10)%Z with true. cbn iota. destruct (view_advance1 src text Hs l1 10 r ltac:(lia) V1) as (V2 & T2). exists [10%Z], r. split; [reflexivity|]. split; [constructor|]. split; [exact V2|]. cbn [py_token_to add_token lx_toks]. now rewrite T2, T1.
    - change (10 =? 13)%Z with false. cbn iota. destruct (is_view (Z.eqb 13) l1 _ V1) as (l2 & -> & V2 & O2 & T2). change (13 =? 13)%Z with true. cbn iota. destruct (view_advance1 src text Hs l2 13 r ltac:(lia) V2) as (V3 & T3).
      destruct (is_view (Z.eqb 10) _ _ V3) as (l4 & -> & V4 & O4 & T4). destruct r as [| d r].
      + exists [13%Z], []. split; [reflexivity|]. split; [constructor; intros x; discriminate|]. split; [exact V4|]. cbn [py_token_to add_token lx_toks]. now rewrite T4, T3, T2, T1.
      + destruct (Z.eqb_spec 10 d) as [<- | N].
        * destruct (view_advance1 src text Hs l4 10 r ltac:(lia) V4) as (V5 & T5). exists [13%Z; 10%Z], r. split; [reflexivity|]. split; [constructor|]. split; [exact V5|]. cbn [py_token_to add_token lx_toks]. now rewrite T5, T4, T3, T2, T1.
        * exists [13%Z], (d :: r). split; [reflexivity|]. split; [constructor; intros x Hx; injection Hx as <-; congruence|]. split; [exact V4|]. cbn [py_token_to add_token lx_toks]. now rewrite T4, T3, T2, T1.
  Qed.

  Lemma not_eolb c : negb (py_eol c) = true <-> ~ eol c.
  Proof. rewrite negb_true_iff. split; [apply (not_true _ _ (eolb c)) | apply (is_false _ _ (eolb c))]. Qed.
  Lemma comment_view l r : view l (35%Z :: r) -> exists l', py_comment src l = Some l' /\ did l l' PyComment PyComment (35%Z :: r).
  Proof.
    intros V. unfold py_comment. destruct (view_advance1 src text Hs l 35 r ltac:(lia) V) as (V1 & T1). destruct (view_take src text Hs _ r (fun c => negb (py_eol c)) V1) as (l' & -> & V' & _ & T'). cbn [option_map]. eexists. split; [reflexivity|].
    set (p := fun c => negb (py_eol c)) in *. exists (35%Z :: char_run p r), (drop_run p r). split; [cbn [app]; now rewrite run_drop|]. split; [constructor; [apply run_all, not_eolb|]|].
    - intros c Hc. pose proof (drop_head p r) as D. destruct (drop_run p r) as [| d r']; [discriminate|]. injection Hc as ->. unfold p in D. apply negb_false_iff in D. now apply eolb.
    - split; [exact V'|]. cbn [py_token_to add_token lx_toks]. now rewrite T', T1.
  Qed.

  Lemma number_view l c r : view l (c :: r) -> digit c -> exists l', py_number src l = Some l' /\ did l l' PyNumber PyNumber (c :: r).
  Proof.
    intros V D. unfold py_number. set (p := fun c => py_digit c || (c =? 46)%Z). destruct (view_take src text Hs l (c :: r) p V) as (l' & -> & V' & _ & T'). cbn [option_map]. eexists. split; [reflexivity|].
    exists (char_run p (c :: r)), (drop_run p (c :: r)). split; [now rewrite run_drop|]. pose proof (run_all p numeral (c :: r) numeralb) as F. assert (p c = true) as E by (apply numeralb; now left). cbn [char_run] in *. rewrite E in *. inversion F; subst.
    split; [constructor; [assumption | assumption | apply run_ends, numeralb]|]. split; [exact V'|]. cbn [py_token_to add_token lx_toks]. now rewrite T'.
  Qed.

  Lemma collect_view : forall fuel acc cs l, view l cs -> length cs < fuel ->
    exists l', py_collect src fuel acc l = Some (acc ++ char_run py_word_char cs, l') /\ view l' (drop_run py_word_char cs) /\ lx_toks l' = lx_toks l.
  Proof.
    induction fuel as [| f IH]; intros acc cs l V L; [lia|]. cbn [py_collect]. destruct (view_current src text Hs l cs V) as (l1 & -> & V1 & _ & T1). destruct cs as [| c cs]; cbn [hd_error].
    - exists l1. cbn [char_run]. rewrite app_nil_r. now split.
    - unfold drop_run. cbn [char_run]. destruct (py_word_char c) eqn:E.
      + destruct (view_advance src text Hs l1 c cs V1) as (V2 & _ & T2). destruct (IH (acc ++ [c]) cs _ V2) as (l' & -> & V' & T'); [cbn [length] in L; lia|]. exists l'. rewrite <- app_assoc. split; [reflexivity|]. split; [exact V' | congruence].
      + exists l1. rewrite app_nil_r. now split.
  Qed.
  Lemma word_kind_of w : word_of w (py_word_kind w).
  Proof.
    assert (Er : py_keywords = reserved) by reflexivity. unfold py_word_kind, word_of. rewrite <- Er. destruct (find (fun e => py_same w (fst e)) py_keywords) as [[w' k]|] eqn:E.
    - apply find_some in E as [I E]. cbn [fst] in E. unfold py_same in E. destruct (list_eq_dec Z.eq_dec w w') as [<- | ]; [|discriminate]. now left.
    - right. split; [reflexivity|]. intros I. apply in_map_iff in I as ([w' k] & <- & I). pose proof (find_none _ _ E _ I) as N. cbn [fst] in N. unfold py_same in N. destruct (list_eq_dec Z.eq_dec w' w'); [discriminate | contradiction].
  Qed.
  Lemma word_view l c r : view l (c :: r) -> letter c -> (In c (map fst prefixes) -> ends quote r) ->
    exists l' k, py_word src l = Some l' /\ did l l' k k (c :: r) /\ special k = false /\ bracket k = false.
  Proof.
    intros V Lc Np. unfold py_word. destruct (collect_view (scan_fuel src) [] (c :: r) l V (view_length no_char no_char src text Hs _ _ V)) as (l' & -> & V' & T'). cbn [option_map app].
    assert (E : py_word_char c = true) by (apply wordyb; now left). pose proof (run_all py_word_char wordy (c :: r) wordyb) as F. cbn [char_run] in *. rewrite E in *. set (s := char_run py_word_char r) in *.
    eexists _, _. split; [reflexivity|]. split; [|exact (word_kind (c :: s) _ (word_kind_of (c :: s)))]. exists (c :: s), (drop_run py_word_char (c :: r)). split; [pose proof (run_drop py_word_char (c :: r)) as X; cbn [char_run] in X; rewrite E in X; symmetry; exact X|].
    split; [|split; [exact V'|]; cbn [py_token_to add_token lx_toks]; now rewrite T']. constructor; [assumption | now inversion F | apply run_ends, wordyb | apply word_kind_of |].
    intros Es I. specialize (Np I). unfold drop_run. cbn [char_run]. rewrite E. fold s. rewrite Es. exact Np.
  Qed.

  (** *** Strings *)
  Lemma loop_view q t : quote q -> forall fuel esc cs l, view l cs -> length cs < fuel ->
    exists s r l', py_string_loop src q t esc fuel l = Some l' /\ cs = s ++ r /\ view l' r /\ lx_toks l' = lx_toks l /\
      if esc then (s = [] /\ r = []) \/ (exists c s', s = c :: s' /\ closes q t s' r) else closes q t s r.
  Proof.
    intros Q. assert (Aq : ascii q) by (destruct Q as [-> | ->]; unfold ascii; lia). induction fuel as [| f IH]; intros esc cs l V L; [lia|]. cbn [py_string_loop].
    destruct (view_current src text Hs l cs V) as (l1 & -> & V1 & _ & T1). destruct cs as [| c cs]; cbn [hd_error].
    - exists [], [], l1. split; [reflexivity|]. split; [reflexivity|]. split; [assumption|]. split; [assumption|]. destruct esc; [left; now split | constructor].
    - cbn [length] in L. destruct (view_advance src text Hs l1 c cs V1) as (V2 & _ & T2). destruct esc.
      + destruct (IH false cs _ V2) as (s & r & l' & -> & -> & V' & T' & C); [lia|]. exists (c :: s), r, l'. split; [reflexivity|]. split; [reflexivity|]. split; [assumption|]. split; [congruence|]. right. now exists c, s.
      + destruct (Z.eqb_spec c 92) as [-> | N92].
        { change (char_len 92) with 1 in *. destruct (IH true cs _ V2) as (s & r & l' & -> & -> & V' & T' & C); [lia|]. exists (92%Z :: s), r, l'. split; [reflexivity|]. split; [reflexivity|]. split; [assumption|]. split; [congruence|].
          destruct C as [[-> ->] | (c & s' & -> & C)]; now constructor. }
        destruct (Z.eqb_spec c q) as [-> | Nq].
        * destruct (view_advance1 src text Hs l1 q cs Aq V1) as (W2 & U2). destruct t.
          { change 1 with (length [q]) at 1. rewrite (quotes_view q [q] cs l1 Aq); [|now constructor | exact V1]. destruct (starts2 q cs) eqn:E2.
            - apply starts2_spec in E2 as (x & ->). exists [q; q; q], x. destruct (view_advance1 src text Hs _ q (q :: x) Aq W2) as (W3 & U3). destruct (view_advance1 src text Hs _ q x Aq W3) as (W4 & U4).
              assert (E3 : lx_advance src l1 3 = lx_advance src (lx_advance src (lx_advance src l1 1) 1) 1). 2:{ eexists. split; [reflexivity|]. split; [reflexivity|]. rewrite E3. split; [assumption|]. split; [congruence | now constructor]. }
              pose proof (view_pos src text l1 _ V1) as P. destruct (ascii_encode [q; q; q]) as [Eq _]; [repeat (constructor; [assumption|]); constructor|]. change (q :: q :: q :: x) with ([q; q; q] ++ x) in P. rewrite encode_app, app_length, Eq in P. cbn [length] in P.
              pose proof (Hlen src text Hs) as Hl. unfold lx_advance, advance_bytes, lx_pos in *. cbn [lx_cur cu_off cu_start cu_text lx_toks]. rewrite Hl. f_equal. f_equal. lia.
            - destruct (IH false cs _ W2) as (s & r & l' & -> & -> & V' & T' & C); [lia|]. exists (q :: s), r, l'. split; [reflexivity|]. split; [reflexivity|]. split; [assumption|]. split; [congruence|].
              constructor; [assumption | discriminate | | assumption]. intros _ _ x Ex. assert (starts2 q (s ++ r) = true) by (apply starts2_spec; now exists x). congruence. }
          exists [q], cs, (lx_advance src l1 1). split; [reflexivity|]. split; [reflexivity|]. split; [assumption|]. split; [congruence | now constructor].
        * destruct (py_eol c && negb t) eqn:Ee.
          { apply andb_true_iff in Ee as [Ee Et]. apply negb_true_iff in Et. subst t. exists [], (c :: cs), l1. split; [reflexivity|]. split; [reflexivity|]. split; [assumption|]. split; [assumption|]. constructor; [reflexivity | now apply eolb]. }
          destruct (IH false cs _ V2) as (s & r & l' & -> & -> & V' & T' & C); [lia|]. exists (c :: s), r, l'. split; [reflexivity|]. split; [reflexivity|]. split; [assumption|]. split; [congruence|]. constructor; [assumption | | |assumption].
          -- intros ->. split; [assumption|]. rewrite andb_true_r in Ee. now apply (not_true _ _ (eolb c)).
          -- intros _ H. congruence.
  Qed.

  (** After the first quote *)
  Lemma rest_view q cs l : quote q -> view l cs ->
    exists s r l', py_string_loop src q (py_quotes src q 0 l) false (scan_fuel src) (if py_quotes src q 0 l then lx_advance src l 2 else l) = Some l' /\
      cs = s ++ r /\ view l' r /\ lx_toks l' = lx_toks l /\ opened q s r.
  Proof.
    intros Q V. assert (Aq : ascii q) by (destruct Q as [-> | ->]; unfold ascii; lia). change 0 with (length (@nil Z)) at 1 2. rewrite (quotes_view q [] cs l Aq); [|constructor | exact V]. destruct (starts2 q cs) eqn:E2.
    - apply starts2_spec in E2 as (x & ->). destruct (view_advance1 src text Hs _ q (q :: x) Aq V) as (W3 & U3). destruct (view_advance1 src text Hs _ q x Aq W3) as (W4 & U4).
      assert (E3 : lx_advance src l 2 = lx_advance src (lx_advance src l 1) 1).
      { pose proof (view_pos src text l _ V) as P. destruct (ascii_encode [q; q]) as [Eq _]; [repeat (constructor; [assumption|]); constructor|]. change (q :: q :: x) with ([q; q] ++ x) in P. rewrite encode_app, app_length, Eq in P. cbn [length] in P.
        pose proof (Hlen src text Hs) as Hl. unfold lx_advance, advance_bytes, lx_pos in *. cbn [lx_cur cu_off cu_start cu_text lx_toks]. rewrite Hl. f_equal. f_equal. lia. }
      rewrite E3. destruct (loop_view q true Q (scan_fuel src) false x _ W4 (view_length no_char no_char src text Hs _ _ W4)) as (s & r & l' & -> & -> & V' & T' & C). exists (q :: q :: s), r, l'. split; [reflexivity|]. split; [reflexivity|]. split; [assumption|]. split; [congruence | now constructor].
    - destruct (loop_view q false Q (scan_fuel src) false cs _ V (view_length no_char no_char src text Hs _ _ V)) as (s & r & l' & -> & -> & V' & T' & C). exists s, r, l'. split; [reflexivity|]. split; [reflexivity|]. split; [assumption|]. split; [congruence|]. constructor; [|assumption].
      intros x Ex. assert (starts2 q (s ++ r) = true) by (apply starts2_spec; now exists x). congruence.
  Qed.

  Lemma string_view l q r : view l (q :: r) -> quote q -> exists l', py_string src l = Some (true, l') /\ did l l' PyString PyString (q :: r).
  Proof.
    intros V Q. assert (Aq : ascii q) by (destruct Q as [-> | ->]; unfold ascii; lia). unfold py_string, py_string_prefix. destruct (view_current src text Hs l _ V) as (l1 & -> & V1 & _ & T1). cbn [hd_error]. assert (py_prefix q = false) as -> by (destruct Q as [-> | ->]; reflexivity).
    destruct (view_current src text Hs l1 _ V1) as (l2 & -> & V2 & _ & T2). cbn [hd_error]. rewrite (proj2 (quoteb q) Q). destruct (view_advance1 src text Hs l2 q r Aq V2) as (V3 & T3). cbv zeta.
    destruct (rest_view q r _ Q V3) as (s & r' & l' & -> & -> & V' & T' & O). cbn [option_map]. eexists. split; [reflexivity|]. exists (q :: s), r'. split; [reflexivity|]. split; [now constructor|]. split; [exact V'|]. cbn [py_token_to add_token lx_toks py_string_kind]. now rewrite T', T3, T2, T1.
  Qed.
  Lemma string_kind_in p : In p (map fst prefixes) -> In (p, py_string_kind (Some p)) prefixes.
  Proof. cbn. intros I. repeat (destruct I as [<- | I]; [vm_compute; tauto|]). contradiction. Qed.
  Lemma prefixed_view l p r : view l (p :: r) -> In p (map fst prefixes) ->
    (ends quote r /\ exists l', py_string src l = Some (false, l') /\ view l' (p :: r) /\ lx_pos l' = lx_pos l /\ lx_toks l' = lx_toks l) \/
    (exists l' k, py_string src l = Some (true, l') /\ did l l' k k (p :: r) /\ special k = false /\ bracket k = false).
  Proof.
    intros V I. pose proof (string_kind_in p I) as Ik. destruct (prefix_kind _ _ Ik) as (K1 & K2 & Lp). assert (Ap : ascii p) by (unfold letter in Lp; unfold ascii; lia).
    unfold py_string, py_string_prefix. destruct (view_current src text Hs l _ V) as (l1 & -> & V1 & O1 & T1). cbn [hd_error]. rewrite (proj2 (prefixb p) I).
    assert (Cl : char_len p = 1) by (unfold char_len; unfold ascii in Ap; destruct (Z.ltb_spec p 128); [reflexivity | lia]). rewrite Cl. rewrite (view_peek1 src text Hs l1 p r Ap V1).
    assert (Npq : py_quote p = false) by (apply (is_false _ _ (quoteb p)); unfold letter, quote in *; lia).
    destruct r as [| q r]; cbn [hd_error]; [left; split; [intros x; discriminate|]; destruct (view_current src text Hs l1 _ V1) as (l2 & -> & V2 & O2 & T2); cbn [hd_error]; rewrite Npq; exists l2; split; [reflexivity|]; split; [assumption|]; split; congruence|].
    destruct (py_quote q) eqn:Eq.
    - right. apply quoteb in Eq. rename Eq into Q. assert (Aq : ascii q) by (destruct Q as [-> | ->]; unfold ascii; lia). destruct (view_advance1 src text Hs l1 p (q :: r) Ap V1) as (V2 & T2).
      destruct (view_current src text Hs _ _ V2) as (l3 & -> & V3 & _ & T3). cbn [hd_error]. rewrite (proj2 (quoteb q) Q). destruct (view_advance1 src text Hs l3 q r Aq V3) as (V4 & T4). cbv zeta.
      destruct (rest_view q r _ Q V4) as (s & r' & l' & -> & -> & V' & T' & O). cbn [option_map]. eexists _, _. split; [reflexivity|]. split; [|split; [exact K1 | exact K2]]. exists (p :: q :: s), r'. split; [reflexivity|]. split; [now constructor|]. split; [exact V'|]. cbn [py_token_to add_token lx_toks]. now rewrite T', T4, T3, T2, T1.
    - left. split; [intros x Hx; injection Hx as <-; now apply (not_true _ _ (quoteb q))|]. destruct (view_current src text Hs l1 _ V1) as (l2 & -> & V2 & O2 & T2). cbn [hd_error]. rewrite Npq. exists l2. split; [reflexivity|]. split; [assumption|]. split; congruence.
  Qed.

  (** *** Operators and delimiters *)
  Lemma arm_eq_view one eq c r l : ascii c -> view l (c :: r) -> exists k l', py_arm_eq src one eq l = (k, l') /\ lx_toks l' = lx_toks l /\
    ((k = eq /\ exists r', r = 61%Z :: r' /\ view l' r') \/ (k = one /\ hd_error r <> Some 61%Z /\ view l' r)).
  Proof.
    intros A V. unfold py_arm_eq. destruct (view_advance1 src text Hs l c r A V) as (V1 & T1). destruct (is_view (Z.eqb 61) _ _ V1) as (l2 & -> & V2 & _ & T2). destruct r as [| d r].
    - exists one, l2. split; [reflexivity|]. split; [congruence|]. right. now split.
    - destruct (Z.eqb_spec 61 d) as [<- | N].
      + destruct (view_advance1 src text Hs l2 61 r ltac:(lia) V2) as (V3 & T3). eexists _, _. split; [reflexivity|]. split; [congruence|]. left. split; [reflexivity|]. now exists r.
      + exists one, l2. split; [reflexivity|]. split; [congruence|]. right. split; [reflexivity|]. split; [cbn; congruence | assumption].
  Qed.
  Lemma arm_other_view d one eq other c r l : ascii c -> view l (c :: r) ->
    (exists k l', py_arm_other src d one eq other l = (k, l') /\ lx_toks l' = lx_toks l /\
      ((k = eq /\ exists r', r = 61%Z :: r' /\ view l' r') \/ (k = one /\ hd_error r <> Some 61%Z /\ hd_error r <> Some d /\ view l' r))) \/
    (hd_error r <> Some 61%Z /\ exists r' l2, r = d :: r' /\ py_arm_other src d one eq other l = other l2 /\ view l2 (d :: r') /\ lx_toks l2 = lx_toks l).
  Proof.
    intros A V. unfold py_arm_other. destruct (view_advance1 src text Hs l c r A V) as (V1 & T1). destruct (is_view (Z.eqb 61) _ _ V1) as (l2 & -> & V2 & _ & T2). destruct r as [| e r].
    - left. destruct (is_view (Z.eqb d) _ _ V2) as (l3 & -> & V3 & _ & T3). exists one, l3. split; [reflexivity|]. split; [congruence|]. right. split; [reflexivity|]. split; [discriminate|]. split; [discriminate | assumption].
    - destruct (Z.eqb_spec 61 e) as [<- | N].
      + left. destruct (view_advance1 src text Hs l2 61 r ltac:(lia) V2) as (V3 & T3). eexists _, _. split; [reflexivity|]. split; [congruence|]. left. split; [reflexivity|]. now exists r.
      + destruct (is_view (Z.eqb d) _ _ V2) as (l3 & -> & V3 & _ & T3). destruct (Z.eqb_spec d e) as [<- | Nd].
        * right. split; [cbn; congruence|]. exists r, l3. split; [reflexivity|]. split; [reflexivity|]. split; [assumption | congruence].
        * left. exists one, l3. split; [reflexivity|]. split; [congruence|]. right. split; [reflexivity|]. split; [cbn; congruence|]. split; [cbn; congruence | assumption].
  Qed.

  Lemma op_done k l l' o r : In (o, k) operators -> longest o r -> view l' r -> lx_toks l' = lx_toks l ->
    exists k', did l (py_token_to k l l') k' k' (o ++ r) /\ special k' = false /\ bracket k' = false.
  Proof.
    intros I Lo V T. exists k. destruct (operator_kind o k I) as (K1 & K2 & _). split; [|split; [exact K1 | exact K2]]. exists o, r. split; [reflexivity|]. split; [now constructor|]. split; [exact V|]. cbn [py_token_to add_token lx_toks]. now rewrite T.
  Qed.
  Ltac in_table := let t := eval vm_compute in operators in change operators with t; cbn [In]; repeat (first [left; reflexivity | right]).
  Ltac longest := let t := eval vm_compute in operators in (let o' := fresh in let k' := fresh in let y := fresh in let I := fresh in let E := fresh in intros o' k' y I E; change operators with t in I; cbn [In] in I;
    repeat (destruct I as [I | I]; [injection I as <- <-; first [now cbn; lia | exfalso; cbn [app] in E; first [discriminate E | inversion E; subst; cbn [hd_error] in *; congruence]]|]); contradiction).
  Ltac simple_op A c :=
    destruct A as (? & ? & -> & ? & [(-> & ? & -> & ?) | (-> & ? & ?)]); cbn [fst snd];
    [apply (op_done _ _ _ [c; 61%Z] _) | apply (op_done _ _ _ [c] _)]; [in_table | longest | assumption | congruence | in_table | longest | assumption | congruence].
  Ltac double_op A c :=
    let r' := fresh in let V2 := fresh in
    destruct A as [(? & ? & -> & ? & [(-> & ? & -> & ?) | (-> & ? & ? & ?)]) | (? & r' & ? & -> & -> & V2 & ?)]; cbn [fst snd];
    [apply (op_done _ _ _ [c; 61%Z] _); [in_table | longest | assumption | congruence]
    |apply (op_done _ _ _ [c] _); [in_table | longest | assumption | congruence]
    |match goal with |- context [py_arm_eq src ?a ?b _] => destruct (arm_eq_view a b c r' _ ltac:(unfold ascii; lia) V2) as (? & ? & -> & ? & [(-> & ? & -> & ?) | (-> & ? & ?)]) end; cbn [fst snd];
     [apply (op_done _ _ _ [c; c; 61%Z] _); [in_table | longest | assumption | congruence] | apply (op_done _ _ _ [c; c] _); [in_table | longest | assumption | congruence]]].

  Lemma operator_view l c r : view l (c :: r) -> py_is_operator c = true -> exists k, did l (py_operator src l) k k (c :: r) /\ special k = false /\ bracket k = false.
  Proof.
    intros V H. unfold py_operator. destruct (view_current src text Hs l _ V) as (l1 & -> & V1 & _ & T1). cbn [hd_error].
    assert (Ac : ascii c) by (unfold py_is_operator in H; unfold ascii; lia).
    unfold py_is_operator in H. rewrite !orb_true_iff, !Z.eqb_eq in H.
    decompose [or] H; subst c; unfold py_arm; cbn [Z.eqb Pos.eqb].
    - simple_op (arm_eq_view PyPlus PyPlusAssign 43 r l1 Ac V1) 43%Z.
    - destruct (arm_other_view 62 PyMinus PyMinusAssign (fun l => (PyArrow, lx_advance src l 1)) 45 r l1 Ac V1) as [(k & l' & -> & T & [(-> & r' & -> & V') | (-> & N & Nd & V')]) | (N & r' & l2 & -> & -> & V2 & T2)]; cbn [fst snd].
      + apply (op_done _ _ _ [45; 61]%Z r'); [in_table | longest | assumption | congruence].
      + apply (op_done _ _ _ [45]%Z r); [in_table | longest | assumption | congruence].
      + destruct (view_advance1 src text Hs l2 62 r' ltac:(lia) V2) as (V3 & T3). apply (op_done _ _ _ [45; 62]%Z r'); [in_table | longest | assumption | congruence].
    - double_op (arm_other_view 42 PyStar PyStarAssign (py_arm_eq src PyDoubleStar PyDoubleStarAssign) 42 r l1 Ac V1) 42%Z.
    - double_op (arm_other_view 47 PySlash PySlashAssign (py_arm_eq src PyDoubleSlash PyDoubleSlashAssign) 47 r l1 Ac V1) 47%Z.
    - simple_op (arm_eq_view PyPercent PyPercentAssign 37 r l1 Ac V1) 37%Z.
    - simple_op (arm_eq_view PyAssign PyEqual 61 r l1 Ac V1) 61%Z.
    - double_op (arm_other_view 60 PyLess PyLessEqual (py_arm_eq src PyLeftShift PyLeftShiftAssign) 60 r l1 Ac V1) 60%Z.
    - double_op (arm_other_view 62 PyGreater PyGreaterEqual (py_arm_eq src PyRightShift PyRightShiftAssign) 62 r l1 Ac V1) 62%Z.
    - simple_op (arm_eq_view PyAmpersand PyAmpersandAssign 38 r l1 Ac V1) 38%Z.
    - simple_op (arm_eq_view PyPipe PyPipeAssign 124 r l1 Ac V1) 124%Z.
    - simple_op (arm_eq_view PyCaret PyCaretAssign 94 r l1 Ac V1) 94%Z.
    - destruct (view_advance1 src text Hs l1 126 r ltac:(lia) V1) as (V3 & T3). apply (op_done _ _ _ [126]%Z r); [in_table | longest | assumption | congruence].
    - simple_op (arm_eq_view PyAt PyAtAssign 64 r l1 Ac V1) 64%Z.
  Qed.

  Lemma delimiter_view l c r : view l (c :: r) -> (py_is_open c || py_is_close c || py_is_punct c) = true ->
    exists k, did l (py_delimiter src l) k k (c :: r) /\ special k = false /\ open_mark k = py_is_open c /\ close_mark k = py_is_close c.
  Proof.
    intros V H. unfold py_delimiter. destruct (view_current src text Hs l _ V) as (l1 & -> & V1 & _ & T1). cbn [hd_error]. change py_delimiters with marks. pose proof (proj1 (py_marks_in c) H) as I.
    destruct (find (fun e => (fst e =? c)%Z) marks) as [[c' k]|] eqn:E.
    - apply find_some in E as [Ik E]. cbn [fst] in E. apply Z.eqb_eq in E. subst c'. destruct (mark_kind c k Ik) as (K1 & K2 & K3 & _). exists k. split; [|split; [exact K1|]; split; [now symmetry | now symmetry]].
      assert (Ac : ascii c) by (unfold py_is_open, py_is_close, py_is_punct in H; unfold ascii; lia). destruct (view_advance1 src text Hs l1 c r Ac V1) as (V2 & T2). exists [c], r. split; [reflexivity|]. split; [now constructor|]. split; [exact V2|]. cbn [py_token_to add_token lx_toks]. now rewrite T2, T1.
    - apply in_map_iff in I as ([c' k] & <- & I). pose proof (find_none _ _ E _ I) as N. cbn [fst] in N. now rewrite Z.eqb_refl in N.
  Qed.
End Steps.
