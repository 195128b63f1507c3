(** The TOML lexer and parser. *)
From Verif Require Import Base Utf8 Utf8Facts ScanSpec CursorModel CursorSpec CursorProofs RopeModel LexModel LexSpec LexProofs LexLoopProofs.
From Verif Require Import TreeModel TreeSpec TreeProofs ParserModel ParserSpec ParserProofs.
From Verif Require Import JsonLangSpec JsonLexProofs LangModel LangSpec LangLexProofs LangParseProofs FlatProofs TomlModel TomlSpec.

(** ** Classes *)
Lemma blankb c : toml_blank c = true <-> is_space c.
Proof. unfold toml_blank, is_space. rewrite !orb_true_iff, !Z.eqb_eq. tauto. Qed.
Lemma digitb c : toml_digit c = true <-> is_digit c.
Proof. unfold toml_digit, is_digit. rewrite andb_true_iff, !Z.leb_le. tauto. Qed.
Lemma signb c : toml_sign c = true <-> is_sign c.
Proof. unfold toml_sign, is_sign. rewrite orb_true_iff, !Z.eqb_eq. tauto. Qed.
Lemma letterb c : toml_letter c = true <-> is_letter c.
Proof. unfold toml_letter, is_letter. rewrite !orb_true_iff, !andb_true_iff, !Z.leb_le, Z.eqb_eq. tauto. Qed.
Lemma wordb c : toml_word c = true <-> is_key c.
Proof. unfold toml_word, is_key. rewrite !orb_true_iff, letterb, digitb, Z.eqb_eq. tauto. Qed.
Lemma iff_false (b : bool) P : (b = true <-> P) -> ~ P -> b = false.
Proof. destruct b; [|reflexivity]. intros H N. now destruct N; apply H. Qed.
Lemma all_true (p : Z -> bool) (P : Z -> Prop) s : (forall c, p c = true <-> P c) -> Forall P s -> Forall (fun c => p c = true) s.
Proof. intros H. apply Forall_impl. intros c. apply H. Qed.
Lemma ends_false (p : Z -> bool) (P : Z -> Prop) r : (forall c, p c = true <-> P c) -> ends P r -> forall c, hd_error r = Some c -> p c = false.
Proof. intros H E c Hc. apply (iff_false _ (P c) (H c)). exact (E c Hc). Qed.

Definition ascii (c : Z) : Prop := (0 <= c < 128)%Z.
(** Pieces in which a step of one byte is a step of one character; comments step by characters. *)
Definition plain (p : piece) : Prop := fst p = Some TComment \/ Forall ascii (snd p).

Section Steps.
  Variable (src : source) (text : str) (slice : nat -> nat -> str).
  Hypothesis Hs : serves src text.
  Hypothesis Hslice : forall a b s, is_boundary text a = true -> reads text a b s -> slice a b = encode s.
  Notation view := (view src text).

  Lemma take_bytes_view p : (forall c, p c = true -> ascii c) -> forall fuel s r l, view l (s ++ r) -> length (s ++ r) < fuel -> Forall (fun c => p c = true) s -> (forall c, hd_error r = Some c -> p c = false) ->
    exists l', take_bytes src p fuel l = Some l' /\ view l' r /\ lx_toks l' = lx_toks l.
  Proof.
    intros A. induction fuel as [| f IH]; intros s r l V L F E; [lia|]. cbn [take_bytes]. destruct (view_current src text Hs l _ V) as (l1 & -> & V1 & _ & T1). destruct s as [| c s]; cbn [app hd_error] in *.
    - destruct r as [| d r]; [exists l1; now split|]. cbn [hd_error]. rewrite (E d eq_refl). exists l1. now split.
    - inversion F as [| ? ? Pc Fs]; subst. rewrite Pc. destruct (view_advance1 src text Hs l1 c (s ++ r) (A c Pc) V1) as (V2 & T2). destruct (IH s r _ V2) as (l' & El & V' & T'); [cbn [length] in L; lia | assumption | assumption|]. exists l'. split; [assumption|]. split; [assumption | congruence].
  Qed.
  Lemma take_view p s r l : (forall c, p c = true -> ascii c) -> view l (s ++ r) -> Forall (fun c => p c = true) s -> (forall c, hd_error r = Some c -> p c = false) ->
    exists l', take_bytes src p (scan_fuel src) l = Some l' /\ view l' r /\ lx_toks l' = lx_toks l.
  Proof. intros A V. apply take_bytes_view; [assumption | assumption | exact (view_length no_char no_char src text Hs _ _ V)]. Qed.

  Lemma here_view p l cs : view l cs -> exists l', here src p l = (match cs with c :: _ => p c | [] => false end, l') /\ view l' cs /\ lx_pos l' = lx_pos l /\ lx_toks l' = lx_toks l.
  Proof. intros V. unfold here. destruct (view_current src text Hs l cs V) as (l1 & -> & V1 & O1 & T1). exists l1. destruct cs; now split. Qed.

  (** *** Strings *)
  Lemma literal_view : forall fuel s r l, view l (s ++ r) -> length (s ++ r) < fuel -> Forall ascii s -> Forall (fun c => c <> 39%Z) s -> (r = [] \/ exists r', r = 39%Z :: r') ->
    exists l', toml_string_loop src 39 false fuel l = Some l' /\ view l' (tl r) /\ lx_toks l' = lx_toks l.
  Proof.
    induction fuel as [| f IH]; intros s r l V L A F E; [lia|]. cbn [toml_string_loop]. destruct (view_current src text Hs l _ V) as (l1 & -> & V1 & _ & T1). destruct s as [| c s]; cbn [app hd_error] in *.
    - destruct E as [-> | (r' & ->)]; cbn [hd_error tl]; [exists l1; now split|]. rewrite Z.eqb_refl. destruct (view_advance1 src text Hs l1 39 r' ltac:(lia) V1) as (V2 & T2). eexists. split; [reflexivity|]. split; [assumption | congruence].
    - inversion F as [| ? ? Nc Fs]; subst. inversion A as [| ? ? Ac As]; subst. apply Z.eqb_neq in Nc. rewrite Nc. cbv zeta. cbn [andb]. destruct (view_advance1 src text Hs l1 c (s ++ r) Ac V1) as (V2 & T2). destruct (IH s r _ V2) as (l' & El & V' & T'); [cbn [length] in L; lia | assumption | assumption | assumption|]. exists l'. split; [assumption|]. split; [assumption | congruence].
  Qed.

  Lemma basic_view : forall fuel s r l, view l (s ++ r) -> length (s ++ r) < fuel -> Forall ascii s -> basic_body s -> (r = [] \/ r = [92%Z] \/ exists r', r = 34%Z :: r') ->
    exists l', toml_string_loop src 34 true fuel l = Some l' /\ view l' (tl r) /\ lx_toks l' = lx_toks l.
  Proof.
    induction fuel as [| f IH]; intros s r l V L A B E; [lia|]. cbn [toml_string_loop]. destruct (view_current src text Hs l _ V) as (l1 & -> & V1 & _ & T1). destruct B as [| c s Nq Ne B | c s B]; cbn [app hd_error] in *.
    - destruct E as [-> | [-> | (r' & ->)]]; cbn [hd_error tl]; [exists l1; now split | |].
      + change (92 =? 34)%Z with false. cbn [andb]. change (92 =? 92)%Z with true. cbv zeta. cbn iota. destruct (view_advance1 src text Hs l1 92 [] ltac:(lia) V1) as (V2 & T2). destruct (view_current src text Hs _ _ V2) as (l3 & -> & V3 & _ & T3). cbn [hd_error].
        destruct (IH [] [] l3 V3) as (l' & El & V' & T'); [cbn [length app] in *; lia | constructor | constructor | now left|]. exists l'. split; [assumption|]. split; [assumption | congruence].
      + rewrite Z.eqb_refl. destruct (view_advance1 src text Hs l1 34 r' ltac:(lia) V1) as (V2 & T2). eexists. split; [reflexivity|]. split; [assumption | congruence].
    - inversion A as [| ? ? Ac As]; subst. apply Z.eqb_neq in Nq, Ne. rewrite Nq, Ne. cbv zeta. cbn [andb]. destruct (view_advance1 src text Hs l1 c (s ++ r) Ac V1) as (V2 & T2). destruct (IH s r _ V2) as (l' & El & V' & T'); [cbn [length] in L; lia | assumption | assumption | assumption|]. exists l'. split; [assumption|]. split; [assumption | congruence].
    - inversion A as [| ? ? _ A2]; subst. inversion A2 as [| ? ? Ac As]; subst. change (92 =? 34)%Z with false. cbn [andb]. change (92 =? 92)%Z with true. cbv zeta. cbn iota.
      destruct (view_advance1 src text Hs l1 92 (c :: s ++ r) ltac:(lia) V1) as (V2 & T2). destruct (view_current src text Hs _ _ V2) as (l3 & -> & V3 & _ & T3). cbn [hd_error]. destruct (view_advance1 src text Hs l3 c (s ++ r) Ac V3) as (V4 & T4).
      destruct (IH s r _ V4) as (l' & El & V' & T'); [cbn [length] in L; lia | assumption | assumption | assumption|]. exists l'. split; [assumption|]. split; [assumption | congruence].
  Qed.

  Lemma view_between l l' s r : view l (s ++ r) -> view l' r -> reads text (lx_pos l) (lx_pos l') s.
  Proof.
    intros V V'. pose proof (view_pos src text l _ V) as P. pose proof (view_pos src text l' _ V') as P'. rewrite encode_app, app_length in P. destruct V as [_ (F & Lt & E)]. apply Forall_app in F as [F _]. split; [assumption|]. split; [lia|].
    unfold substr in *. replace (lx_pos l' - lx_pos l) with (length (encode s)) by lia. rewrite encode_app in E. rewrite <- (firstn_all2 (n := length text - lx_pos l) (skipn (lx_pos l) text)) by (rewrite skipn_length; lia). rewrite E, firstn_app, Nat.sub_diag, firstn_all. cbn [firstn]. apply app_nil_r.
  Qed.

  (** *** One piece *)
  Lemma digit_ascii c : toml_digit c = true -> ascii c.
  Proof. rewrite digitb. unfold is_digit, ascii. lia. Qed.
  Lemma blank_ascii c : toml_blank c = true -> ascii c.
  Proof. rewrite blankb. unfold is_space, ascii. lia. Qed.
  Lemma word_ascii c : toml_word c = true -> ascii c.
  Proof. rewrite wordb. unfold is_key, is_letter, is_digit, ascii. lia. Qed.

  Lemma number_view s d l r : view l (s ++ d ++ r) -> signed s -> Forall is_digit d -> s ++ d <> [] -> ends is_digit r -> hd_error r <> Some 46%Z ->
    exists l', toml_number src l = Some l' /\ stepped src text l l' (Some TInteger) r.
  Proof.
    intros V Sg D N E Nd. unfold toml_number. destruct (here_view toml_sign l _ V) as (l1 & -> & V1 & O1 & T1).
    assert (H : exists l2, view l2 (d ++ r) /\ lx_toks l2 = lx_toks l /\ (if match s ++ d ++ r with c :: _ => toml_sign c | [] => false end then lx_advance src l1 1 else l1) = l2).
    { destruct Sg as [-> | (c & -> & Hc)]; cbn [app] in *.
      - destruct d as [| c d]; [congruence|]. cbn [app]. assert (toml_sign c = false) as ->. { inversion D; subst. apply (iff_false _ _ (signb c)). unfold is_sign, is_digit in *. lia. } exists l1. split; [assumption|]. now split.
      - rewrite (proj2 (signb c) Hc). destruct (view_advance1 src text Hs l1 c (d ++ r)) as (V2 & T2); [unfold is_sign in Hc; lia | assumption|]. eexists. split; [exact V2|]. split; [congruence | reflexivity]. }
    destruct H as (l2 & V2 & T2 & ->). destruct (take_view toml_digit d r l2 digit_ascii V2 (all_true _ _ _ digitb D) (ends_false _ _ _ digitb E)) as (l3 & -> & V3 & T3).
    destruct (here_view (Z.eqb 46) l3 _ V3) as (l4 & -> & V4 & O4 & T4). assert (match r with c :: _ => Z.eqb 46 c | [] => false end = false) as ->. { destruct r as [| c r]; [reflexivity|]. apply Z.eqb_neq. cbn in Nd. congruence. }
    eexists. split; [reflexivity|]. split; [exact V4|]. cbn [add_token lx_toks]. rewrite T4, T3, T2. reflexivity.
  Qed.
  Lemma float_view s d e l r : view l (s ++ d ++ 46%Z :: e ++ r) -> signed s -> Forall is_digit d -> s ++ d <> [] -> Forall is_digit e -> ends is_digit r ->
    exists l', toml_number src l = Some l' /\ stepped src text l l' (Some TFloat) r.
  Proof.
    intros V Sg D N E En. unfold toml_number. destruct (here_view toml_sign l _ V) as (l1 & -> & V1 & O1 & T1).
    assert (H : exists l2, view l2 (d ++ 46%Z :: e ++ r) /\ lx_toks l2 = lx_toks l /\ (if match s ++ d ++ 46%Z :: e ++ r with c :: _ => toml_sign c | [] => false end then lx_advance src l1 1 else l1) = l2).
    { destruct Sg as [-> | (c & -> & Hc)]; cbn [app] in *.
      - destruct d as [| c d]; [congruence|]. cbn [app]. assert (toml_sign c = false) as ->. { inversion D; subst. apply (iff_false _ _ (signb c)). unfold is_sign, is_digit in *. lia. } exists l1. split; [assumption|]. now split.
      - rewrite (proj2 (signb c) Hc). destruct (view_advance1 src text Hs l1 c (d ++ 46%Z :: e ++ r)) as (V2 & T2); [unfold is_sign in Hc; lia | assumption|]. eexists. split; [exact V2|]. split; [congruence | reflexivity]. }
    destruct H as (l2 & V2 & T2 & ->). destruct (take_view toml_digit d (46%Z :: e ++ r) l2 digit_ascii V2 (all_true _ _ _ digitb D)) as (l3 & -> & V3 & T3); [intros c Hc; injection Hc as <-; reflexivity|].
    destruct (here_view (Z.eqb 46) l3 _ V3) as (l4 & -> & V4 & O4 & T4). change (46 =? 46)%Z with true. cbn iota. destruct (view_advance1 src text Hs l4 46 (e ++ r) ltac:(lia) V4) as (V5 & T5).
    destruct (take_view toml_digit e r _ digit_ascii V5 (all_true _ _ _ digitb E) (ends_false _ _ _ digitb En)) as (l6 & -> & V6 & T6).
    eexists. split; [reflexivity|]. split; [exact V6|]. cbn [add_token lx_toks]. rewrite T6, T5, T4, T3, T2. reflexivity.
  Qed.

  Lemma doubled_one c one two l r : ascii c -> view l (c :: r) -> ends (eq c) r -> stepped src text l (toml_doubled src c one two l) (Some one) r.
  Proof.
    intros A V E. unfold toml_doubled. destruct (view_advance1 src text Hs l c r A V) as (V1 & T1). destruct (here_view (Z.eqb c) _ _ V1) as (l2 & -> & V2 & O2 & T2).
    assert (match r with d :: _ => Z.eqb c d | [] => false end = false) as ->. { destruct r as [| d r]; [reflexivity|]. apply Z.eqb_neq. intros ->. exact (E d eq_refl eq_refl). }
    split; [exact V2|]. cbn [add_token lx_toks]. now rewrite T2, T1.
  Qed.
  Lemma doubled_two c one two l r : ascii c -> view l (c :: c :: r) -> stepped src text l (toml_doubled src c one two l) (Some two) r.
  Proof.
    intros A V. unfold toml_doubled. destruct (view_advance1 src text Hs l c (c :: r) A V) as (V1 & T1). destruct (here_view (Z.eqb c) _ _ V1) as (l2 & -> & V2 & O2 & T2). rewrite Z.eqb_refl.
    destruct (view_advance1 src text Hs l2 c r A V2) as (V3 & T3). cbv zeta. split; [exact V3|]. cbn [add_token lx_toks]. now rewrite T3, T2, T1.
  Qed.
  Lemma single_view k c l r : ascii c -> view l (c :: r) -> stepped src text l (toml_single src k l) (Some k) r.
  Proof. intros A V. unfold toml_single. destruct (view_advance1 src text Hs l c r A V) as (V1 & T1). cbv zeta. split; [exact V1|]. cbn [add_token lx_toks]. now rewrite T1. Qed.

  Lemma arm_other c l : toml_blank c = false -> (c =? 35)%Z = false -> (c =? 34)%Z = false -> (c =? 39)%Z = false -> toml_digit c = false -> toml_sign c = false -> toml_letter c = false ->
    toml_arm src slice c l = match toml_punctuation src c l with Some l' => Some l' | None => Some (lx_advance src l 1) end.
  Proof. intros H1 H2 H3 H4 H5 H6 H7. unfold toml_arm. now rewrite H1, H2, H3, H4, H5, H6, H7. Qed.
  Lemma arm_letter c l : toml_letter c = true -> toml_arm src slice c l = toml_identifier src slice l.
  Proof.
    intros H. unfold toml_arm. rewrite H. apply letterb in H. assert (toml_blank c = false) as -> by (apply (iff_false _ _ (blankb c)); unfold is_letter, is_space in *; lia).
    assert (c <> 35 /\ c <> 34 /\ c <> 39)%Z as (N1 & N2 & N3) by (unfold is_letter in *; lia). apply Z.eqb_neq in N1, N2, N3. rewrite N1, N2, N3.
    assert (toml_digit c = false) as -> by (apply (iff_false _ _ (digitb c)); unfold is_letter, is_digit in *; lia). assert (toml_sign c = false) as -> by (apply (iff_false _ _ (signb c)); unfold is_letter, is_sign in *; lia). reflexivity.
  Qed.
  Lemma arm_number c l : is_digit c \/ is_sign c -> toml_arm src slice c l = toml_number src l.
  Proof.
    intros H. unfold toml_arm. assert (toml_blank c = false) as -> by (apply (iff_false _ _ (blankb c)); unfold is_sign, is_digit, is_space in *; lia).
    assert (c <> 35 /\ c <> 34 /\ c <> 39)%Z as (N1 & N2 & N3) by (unfold is_sign, is_digit in *; lia). apply Z.eqb_neq in N1, N2, N3. rewrite N1, N2, N3.
    assert (toml_digit c || toml_sign c = true) as -> by (apply orb_true_iff; rewrite digitb, signb; assumption). reflexivity.
  Qed.
  Lemma number_first s d r : signed s -> Forall is_digit d -> s ++ d <> [] -> exists c t, s ++ d ++ r = c :: t /\ (is_digit c \/ is_sign c).
  Proof. intros [-> | (c & -> & Hc)] D N; cbn [app] in *; [|now exists c, (d ++ r); split; [|right]]. destruct d as [| c d]; [congruence|]. exists c, (d ++ r). split; [reflexivity|]. left. now inversion D. Qed.

  Lemma arm_step l k s r : view l (s ++ r) -> s <> [] -> toml_token k s r -> plain (k, s) ->
    exists c t l', s ++ r = c :: t /\ toml_arm src slice c l = Some l' /\ stepped src text l l' k r.
  Proof.
    intros V N T P. destruct T as [s r F E | s r F E | s r B | s B | s B | s r F | s F | s d r Sg D Ne E | s d e r Sg D Ne De E | r E | r | r E | r | c k r I | c s r Lc F E | c r N1 N2 N3 N4 N5 N6].
    - destruct s as [| c s]; [congruence|]. exists c, (s ++ r). unfold toml_arm. assert (toml_blank c = true) as -> by (inversion F; now apply blankb). unfold toml_whitespace.
      destruct (take_view toml_blank (c :: s) r l blank_ascii V (all_true _ _ _ blankb F) (ends_false _ _ _ blankb E)) as (l' & -> & V' & T'). cbn [option_map]. unfold token_if. rewrite (lx_moved_run src text l l' (c :: s) r V V').
      eexists. split; [reflexivity|]. split; [reflexivity|]. cbn [snd]. split; [exact V'|]. cbn [add_token lx_toks]. now rewrite T'.
    - exists 35%Z, (s ++ r). unfold toml_arm. change (toml_blank 35) with false. change (35 =? 35)%Z with true. cbn iota. unfold toml_comment. destruct (view_advance1 src text Hs l 35 (s ++ r) ltac:(lia) V) as (V1 & T1).
      set (p := fun c => negb ((c =? 10) || (c =? 13))%Z). destruct (view_take src text Hs _ _ p V1) as (l2 & -> & V2 & _ & T2). cbn [option_map].
      assert (Hp : forall c, p c = true <-> ~ is_eol c) by (intros c; unfold p, is_eol; rewrite negb_true_iff, orb_false_iff, !Z.eqb_neq; tauto).
      assert (drop_run p (s ++ r) = r) as Ed.
      { destruct (run_unique p s r (s ++ r) eq_refl) as (Er & <-); [revert F; apply Forall_impl; intros c; apply Hp | destruct r as [| c r]; [exact I|]; apply (iff_false _ _ (Hp c)); intros Nc; apply Nc; now apply E | congruence]. }
      rewrite Ed in V2. eexists. split; [reflexivity|]. split; [reflexivity|]. split; [exact V2|]. cbn [add_token lx_toks]. now rewrite T2, T1.
    - destruct P as [P | P]; [discriminate|]. cbn [snd] in P. inversion P as [| ? ? _ P2]; subst. apply Forall_app in P2 as [P2 _]. exists 34%Z, (s ++ 34%Z :: r). rewrite <- app_comm_cons, <- app_assoc in *. cbn [app] in *. unfold toml_arm. change (toml_blank 34) with false. change (34 =? 35)%Z with false. change (34 =? 34)%Z with true. cbn iota. unfold toml_string.
      destruct (view_advance1 src text Hs l 34 _ ltac:(lia) V) as (V1 & T1). destruct (basic_view (scan_fuel src) s (34%Z :: r) _ V1 (view_length no_char no_char src text Hs _ _ V1) P2 B) as (l2 & -> & V2 & T2); [right; right; now exists r|]. cbn [option_map tl] in *.
      eexists. split; [reflexivity|]. split; [reflexivity|]. split; [exact V2|]. cbn [add_token lx_toks]. now rewrite T2, T1.
    - destruct P as [P | P]; [discriminate|]. cbn [snd] in P. inversion P as [| ? ? _ P2]; subst. exists 34%Z, (s ++ []). cbn [app] in *. unfold toml_arm. change (toml_blank 34) with false. change (34 =? 35)%Z with false. change (34 =? 34)%Z with true. cbn iota. unfold toml_string.
      destruct (view_advance1 src text Hs l 34 _ ltac:(lia) V) as (V1 & T1). destruct (basic_view (scan_fuel src) s [] _ V1 (view_length no_char no_char src text Hs _ _ V1) P2 B) as (l2 & -> & V2 & T2); [now left|]. cbn [option_map tl] in *.
      eexists. split; [reflexivity|]. split; [reflexivity|]. split; [exact V2|]. cbn [add_token lx_toks]. now rewrite T2, T1.
    - destruct P as [P | P]; [discriminate|]. cbn [snd] in P. inversion P as [| ? ? _ P2]; subst. apply Forall_app in P2 as [P2 _]. exists 34%Z, (s ++ [92%Z]). rewrite app_nil_r in *. unfold toml_arm. change (toml_blank 34) with false. change (34 =? 35)%Z with false. change (34 =? 34)%Z with true. cbn iota. unfold toml_string.
      destruct (view_advance1 src text Hs l 34 _ ltac:(lia) V) as (V1 & T1). destruct (basic_view (scan_fuel src) s [92%Z] _ V1 (view_length no_char no_char src text Hs _ _ V1) P2 B) as (l2 & -> & V2 & T2); [right; now left|]. cbn [option_map tl] in *.
      eexists. split; [reflexivity|]. split; [reflexivity|]. split; [exact V2|]. cbn [add_token lx_toks]. now rewrite T2, T1.
    - destruct P as [P | P]; [discriminate|]. cbn [snd] in P. inversion P as [| ? ? _ P2]; subst. apply Forall_app in P2 as [P2 _]. exists 39%Z, (s ++ 39%Z :: r). rewrite <- app_comm_cons, <- app_assoc in *. cbn [app] in *. unfold toml_arm. change (toml_blank 39) with false. change (39 =? 35)%Z with false. change (39 =? 34)%Z with false. change (39 =? 39)%Z with true. cbn iota. unfold toml_string.
      destruct (view_advance1 src text Hs l 39 _ ltac:(lia) V) as (V1 & T1). destruct (literal_view (scan_fuel src) s (39%Z :: r) _ V1 (view_length no_char no_char src text Hs _ _ V1) P2 F) as (l2 & -> & V2 & T2); [right; now exists r|]. cbn [option_map tl] in *.
      eexists. split; [reflexivity|]. split; [reflexivity|]. split; [exact V2|]. cbn [add_token lx_toks]. now rewrite T2, T1.
    - destruct P as [P | P]; [discriminate|]. cbn [snd] in P. inversion P as [| ? ? _ P2]; subst. exists 39%Z, (s ++ []). cbn [app] in *. unfold toml_arm. change (toml_blank 39) with false. change (39 =? 35)%Z with false. change (39 =? 34)%Z with false. change (39 =? 39)%Z with true. cbn iota. unfold toml_string.
      destruct (view_advance1 src text Hs l 39 _ ltac:(lia) V) as (V1 & T1). destruct (literal_view (scan_fuel src) s [] _ V1 (view_length no_char no_char src text Hs _ _ V1) P2 F) as (l2 & -> & V2 & T2); [now left|]. cbn [option_map tl] in *.
      eexists. split; [reflexivity|]. split; [reflexivity|]. split; [exact V2|]. cbn [add_token lx_toks]. now rewrite T2, T1.
    - rewrite <- app_assoc in *. destruct (number_first s d r Sg D Ne) as (c & t & Ec & Hc). exists c, t. rewrite (arm_number c l Hc). destruct (number_view s d l r V Sg D Ne) as (l' & -> & S'); [intros x Hx Hd; apply (E x Hx); now left | intros Hx; apply (E _ Hx); now right|]. exists l'. split; [assumption|]. split; [reflexivity | assumption].
    - rewrite <- !app_assoc in *. cbn [app] in *. destruct (number_first s d (46%Z :: e ++ r) Sg D Ne) as (c & t & Ec & Hc). exists c, t. rewrite (arm_number c l Hc). destruct (float_view s d e l r V Sg D Ne De E) as (l' & -> & S'). exists l'. split; [assumption|]. split; [reflexivity | assumption].
    - exists 91%Z, r, (toml_doubled src 91 TLBracket TLL l). split; [reflexivity|]. split; [reflexivity|]. apply doubled_one; [unfold ascii; lia | assumption | assumption].
    - exists 91%Z, (91%Z :: r), (toml_doubled src 91 TLBracket TLL l). split; [reflexivity|]. split; [reflexivity|]. apply doubled_two; [unfold ascii; lia | assumption].
    - exists 93%Z, r, (toml_doubled src 93 TRBracket TRR l). split; [reflexivity|]. split; [reflexivity|]. apply doubled_one; [unfold ascii; lia | assumption | assumption].
    - exists 93%Z, (93%Z :: r), (toml_doubled src 93 TRBracket TRR l). split; [reflexivity|]. split; [reflexivity|]. apply doubled_two; [unfold ascii; lia | assumption].
    - exists c, r, (toml_single src k l). split; [reflexivity|]. unfold puncts in I. cbn [In] in I.
      repeat (destruct I as [I | I]; [injection I as <- <-; split; [reflexivity | refine (single_view _ _ _ _ _ V); unfold ascii; lia]|]). destruct I.
    - exists c, (s ++ r). rewrite (arm_letter c l (proj2 (letterb c) Lc)). unfold toml_identifier. assert (Fc : Forall is_key (c :: s)) by (constructor; [now left | assumption]).
      destruct (take_view toml_word (c :: s) r l word_ascii V (all_true _ _ _ wordb Fc) (ends_false _ _ _ wordb E)) as (l' & -> & V' & T'). cbn [option_map].
      eexists. split; [reflexivity|]. split; [reflexivity|]. split; [exact V'|]. cbn [add_token lx_toks]. rewrite T', (Hslice (lx_pos l) _ _ (proj2 (proj1 V)) (view_between l l' (c :: s) r V V')). assert (encode (c :: s) = c :: s) as -> by (apply ascii_encode; revert Fc; apply Forall_impl; intros x Hx; apply word_ascii; now apply wordb).
      unfold is_text. do 2 f_equal. destruct (list_eq_dec Z.eq_dec (c :: s) (lit "true")); [reflexivity|]. cbn [orb]. destruct (list_eq_dec Z.eq_dec (c :: s) (lit "false")); reflexivity.
    - exists c, r, (lx_advance src l 1). split; [reflexivity|]. destruct P as [P | P]; [discriminate|]. inversion P as [| ? ? Ac _]; subst.
      rewrite arm_other; [| apply (iff_false _ _ (blankb c)) | apply Z.eqb_neq | apply Z.eqb_neq | apply Z.eqb_neq | apply (iff_false _ _ (digitb c)) | apply (iff_false _ _ (signb c)) | apply (iff_false _ _ (letterb c))]; try assumption; try (intros ->; apply N5; cbn; tauto).
      assert (toml_punctuation src c l = None) as ->.
      { unfold toml_punctuation. cbn [puncts map fst In] in N6. cbn [In] in N5. repeat match goal with |- context [(c =? ?x)%Z] => destruct (Z.eqb_spec c x); [exfalso; subst; tauto|] end. reflexivity. }
      split; [reflexivity|]. destruct (view_advance1 src text Hs l c r Ac V) as (V1 & T1). split; [exact V1|]. now rewrite app_nil_r.
  Qed.
End Steps.

(** ** The whole text *)
Section Run.
  Variable (src : source) (text : str) (slice : nat -> nat -> str).
  Hypothesis Hs : serves src text.
  Hypothesis Hslice : forall a b s, is_boundary text a = true -> reads text a b s -> slice a b = encode s.
  Notation view := (view src text).

  Lemma run_view cs ps : cut toml_token cs ps -> Forall plain ps -> forall fuel l, view l cs -> length cs < fuel ->
    exists l', toml_run src slice fuel l = Some l' /\ lx_toks l' = lx_toks l ++ spans (lx_pos l) ps /\ lx_pos l' = length text.
  Proof.
    induction 1 as [| k s r ps N T _ IH]; intros P fuel l V L; (destruct fuel as [| f]; [lia|]); cbn [toml_run]; unfold not_at_end; rewrite (Hlen src text Hs); pose proof (view_pos src text l _ V) as Pv.
    - cbn [encode length] in Pv. destruct (Nat.ltb_spec (lx_pos l) (length text)); [lia|]. exists l. cbn [spans]. rewrite app_nil_r. split; [reflexivity|]. split; [reflexivity | lia].
    - inversion P as [| ? ? P1 P2]; subst. destruct s as [| c s]; [congruence|]. assert (0 < length (encode (c :: s))) by (cbn [encode]; rewrite app_length, encode_char_length; pose proof (char_len_pos c); lia). rewrite encode_app, app_length in Pv. destruct (Nat.ltb_spec (lx_pos l) (length text)); [|lia].
      destruct (view_current src text Hs l _ V) as (l1 & -> & V1 & O1 & T1). destruct (arm_step src text slice Hs Hslice l1 k (c :: s) r V1 N T P1) as (c' & t' & l2 & Ec & Ea & V2 & T2). injection Ec as <- _. cbn [app hd_error]. rewrite Ea.
      destruct (IH P2 f l2 V2) as (l' & -> & T' & O'). { rewrite app_length in L. cbn [length] in L. lia. }
      exists l'. split; [reflexivity|]. split; [|assumption]. assert (O3 : lx_pos l2 = lx_pos l + length (encode (c :: s))) by (pose proof (view_pos src text l2 r V2); lia). rewrite T', T2, T1. cbn [spans]. rewrite <- O3, O1. now destruct k; rewrite <- app_assoc.
  Qed.
End Run.

Lemma toml_lex_cut src text slice cs ps : serves src text -> (forall a b s, is_boundary text a = true -> reads text a b s -> slice a b = encode s) -> reads text 0 (length text) cs ->
  cut toml_token cs ps -> Forall plain ps -> toml_lex src slice = Some (spans 0 ps ++ [Token TEof (length text) (length text)]).
Proof.
  intros Hs Hsl R C P. destruct (new_view src text Hs cs R) as [V O]. destruct (run_view src text slice Hs Hsl cs ps C P (scan_fuel src) _ V (view_length no_char no_char src text Hs _ _ V)) as (l' & E & T & Pl).
  unfold toml_lex. rewrite E. unfold add_eof. cbn [add_token lx_toks]. rewrite T, Pl, O. reflexivity.
Qed.

(** ** Every text has pieces *)
Lemma split_run (p : Z -> bool) (P : Z -> Prop) cs : (forall c, p c = true <-> P c) -> exists s r, cs = s ++ r /\ Forall P s /\ ends P r.
Proof.
  intros H. induction cs as [| c cs (s & r & -> & F & E)].
  - exists [], []. split; [reflexivity|]. split; [constructor | discriminate].
  - destruct (p c) eqn:Pc.
    + exists (c :: s), r. split; [reflexivity|]. split; [constructor; [now apply H | assumption] | assumption].
    + exists [], (c :: s ++ r). split; [reflexivity|]. split; [constructor|]. intros d Ed Pd. injection Ed as <-. apply H in Pd. congruence.
Qed.
Lemma run_nonempty (P : Z -> Prop) c cs s r : c :: cs = s ++ r -> P c -> ends P r -> exists s', s = c :: s' /\ cs = s' ++ r.
Proof. intros E Pc En. destruct s as [| d s]; cbn [app] in E; [subst r; now destruct (En c eq_refl)|]. injection E as <- ->. now exists s. Qed.

Lemma basic_split : forall n cs, length cs <= n -> exists s r, cs = s ++ r /\ basic_body s /\ (r = [] \/ r = [92%Z] \/ exists r', r = 34%Z :: r').
Proof.
  induction n as [| n IH]; intros [| c cs] L; cbn [length] in L; try lia; try (exists [], []; split; [reflexivity|]; split; [constructor | now left]).
  destruct (Z.eq_dec c 34) as [-> | Nq]; [exists [], (34%Z :: cs); split; [reflexivity|]; split; [constructor|]; right; right; now exists cs|]. destruct (Z.eq_dec c 92) as [-> | Ne].
  - destruct cs as [| d cs]; [exists [], [92%Z]; split; [reflexivity|]; split; [constructor | right; now left]|]. destruct (IH cs) as (s & r & -> & B & E); [cbn [length] in L; lia|]. exists (92%Z :: d :: s), r. split; [reflexivity|]. split; [now constructor | assumption].
  - destruct (IH cs) as (s & r & -> & B & E); [lia|]. exists (c :: s), r. split; [reflexivity|]. split; [now constructor | assumption].
Qed.

Lemma number_split s cs : signed s -> s <> [] \/ (exists c t, cs = c :: t /\ is_digit c) -> exists k u r, s ++ cs = u ++ r /\ u <> [] /\ toml_token k u r.
Proof.
  intros Sg N. destruct (split_run toml_digit is_digit cs digitb) as (d & r & -> & D & E). assert (Ne : s ++ d <> []).
  { destruct N as [N | (c & t & Ec & Hc)]; [destruct s; [congruence | discriminate]|]. destruct (run_nonempty is_digit c t d r) as (d' & -> & _); [congruence | assumption | assumption|]. destruct s; discriminate. }
  destruct r as [| c r]; [exists (Some TInteger), (s ++ d), []; rewrite app_assoc; split; [reflexivity|]; split; [assumption|]; apply TkInteger; try assumption; discriminate|].
  destruct (Z.eq_dec c 46) as [-> | Nd].
  - destruct (split_run toml_digit is_digit r digitb) as (e & r' & -> & De & E'). exists (Some TFloat), (s ++ d ++ 46%Z :: e), r'. split; [rewrite <- !app_assoc; reflexivity|]. split; [destruct s, d; discriminate|]. now apply TkFloat.
  - exists (Some TInteger), (s ++ d), (c :: r). rewrite app_assoc. split; [reflexivity|]. split; [assumption|]. apply TkInteger; try assumption. intros x Hx [Hd | Hd]; [exact (E x Hx Hd)|]. injection Hx as <-. contradiction.
Qed.

Lemma toml_first c cs : exists k s r, c :: cs = s ++ r /\ s <> [] /\ toml_token k s r.
Proof.
  destruct (toml_blank c) eqn:Hb.
  { apply blankb in Hb. destruct (split_run toml_blank is_space (c :: cs) blankb) as (s & r & E & F & En). exists (Some TWhitespace), s, r. split; [assumption|]. destruct (run_nonempty _ _ _ _ _ E Hb En) as (s' & -> & _). split; [discriminate | now apply TkSpace]. }
  destruct (toml_digit c) eqn:Hd. { apply digitb in Hd. destruct (number_split [] (c :: cs)) as (k & u & r & E & N & T); [now left | right; now exists c, cs|]. now exists k, u, r. }
  destruct (toml_sign c) eqn:Hsg. { apply signb in Hsg. destruct (number_split [c] cs) as (k & u & r & E & N & T); [right; now exists c | left; discriminate|]. now exists k, u, r. }
  destruct (toml_letter c) eqn:Hl.
  { apply letterb in Hl. destruct (split_run toml_word is_key (c :: cs) wordb) as (s & r & E & F & En). destruct (run_nonempty _ _ _ _ _ E (or_introl Hl) En) as (s' & -> & _). inversion F; subst. eexists _, (c :: s'), r. split; [assumption|]. split; [discriminate|]. now apply TkWord. }
  destruct (Z.eq_dec c 35) as [-> | N35].
  { destruct (split_run (fun c => negb ((c =? 10) || (c =? 13)))%Z (fun c => ~ is_eol c) cs) as (s & r & -> & F & En); [intros x; unfold is_eol; rewrite negb_true_iff, orb_false_iff, !Z.eqb_neq; tauto|].
    exists (Some TComment), (35%Z :: s), r. split; [reflexivity|]. split; [discriminate|]. apply TkComment; [assumption|]. intros x Hx. specialize (En x Hx). unfold is_eol in *. destruct (Z.eq_dec x 10), (Z.eq_dec x 13); tauto. }
  destruct (Z.eq_dec c 34) as [-> | N34].
  { destruct (basic_split (length cs) cs (le_n _)) as (s & r & -> & B & [-> | [-> | (r' & ->)]]).
    - exists (Some TBasic), (34%Z :: s), []. split; [reflexivity|]. split; [discriminate | now apply TkBasicOpen].
    - exists (Some TBasic), (34%Z :: s ++ [92%Z]), []. split; [now rewrite app_nil_r|]. split; [discriminate | now apply TkBasicCut].
    - exists (Some TBasic), (34%Z :: s ++ [34%Z]), r'. split; [cbn [app]; now rewrite <- app_assoc|]. split; [discriminate | now apply TkBasic]. }
  destruct (Z.eq_dec c 39) as [-> | N39].
  { destruct (split_run (fun c => negb (c =? 39))%Z (fun c => c <> 39%Z) cs) as (s & r & -> & F & En); [intros x; rewrite negb_true_iff, Z.eqb_neq; tauto|]. destruct r as [| d r].
    - exists (Some TLiteral), (39%Z :: s), []. split; [reflexivity|]. split; [discriminate | now apply TkLiteralOpen].
    - assert (d = 39%Z) as -> by (specialize (En d eq_refl); destruct (Z.eq_dec d 39); tauto). exists (Some TLiteral), (39%Z :: s ++ [39%Z]), r. split; [cbn [app]; now rewrite <- app_assoc|]. split; [discriminate | now apply TkLiteral]. }
  destruct (Z.eq_dec c 91) as [-> | N91].
  { destruct cs as [| d cs]; [exists (Some TLBracket), [91%Z], []; split; [reflexivity|]; split; [discriminate | apply TkOpen; discriminate]|]. destruct (Z.eq_dec d 91) as [-> | Nd]; [exists (Some TLL), [91; 91]%Z, cs; split; [reflexivity|]; split; [discriminate | apply TkOpen2]|].
    exists (Some TLBracket), [91%Z], (d :: cs). split; [reflexivity|]. split; [discriminate|]. apply TkOpen. intros x Hx Ex. injection Hx as <-. congruence. }
  destruct (Z.eq_dec c 93) as [-> | N93].
  { destruct cs as [| d cs]; [exists (Some TRBracket), [93%Z], []; split; [reflexivity|]; split; [discriminate | apply TkClose; discriminate]|]. destruct (Z.eq_dec d 93) as [-> | Nd]; [exists (Some TRR), [93; 93]%Z, cs; split; [reflexivity|]; split; [discriminate | apply TkClose2]|].
    exists (Some TRBracket), [93%Z], (d :: cs). split; [reflexivity|]. split; [discriminate|]. apply TkClose. intros x Hx Ex. injection Hx as <-. congruence. }
  destruct (in_dec Z.eq_dec c (map fst puncts)) as [I | I].
  { apply in_map_iff in I as ([c' k] & <- & I). exists (Some k), [c'], cs. split; [reflexivity|]. split; [discriminate | now apply TkPunct]. }
  exists None, [c], cs. split; [reflexivity|]. split; [discriminate|]. apply TkStray; try assumption; try (rewrite <- ?blankb, <- ?digitb, <- ?signb, <- ?letterb; congruence). cbn [In]. intuition congruence.
Qed.

Lemma toml_cut_exists : forall cs, exists ps, cut toml_token cs ps.
Proof.
  intros cs. remember (length cs) as n eqn:En. revert cs En. induction n as [n IH] using lt_wf_ind. intros [| c cs] ->; [exists []; constructor|]. destruct (toml_first c cs) as (k & s & r & E & N & T).
  destruct (IH (length r)) with (cs := r) as (ps & C); [|reflexivity|]. { apply (f_equal (@length Z)) in E. rewrite app_length in E. rewrite E. destruct s; [congruence | cbn; lia]. }
  exists ((k, s) :: ps). rewrite E. now constructor.
Qed.

(** ** Any text, at any position *)
Section Flat.
  Variable (text : str) (slice : nat -> nat -> str).
  Notation src := (flat_source text).
  Notation len := (length text).

  Lemma fl_inside off toks x : off <= len -> lx_current src (fl text off toks) = (Some x, fl text off toks) -> off < len.
  Proof. intros L E. destruct (fl_current text off toks L) as (y & Ey & Hy). rewrite Ey in E. injection E as ->. destruct (Nat.eq_dec off len) as [-> |]; [specialize (Hy eq_refl); discriminate | lia]. Qed.

  Lemma bytes_flat p : forall fuel off toks, off <= len -> len - off < fuel -> exists off', off <= off' <= len /\ take_bytes src p fuel (fl text off toks) = Some (fl text off' toks) /\
    (forall c, lx_current src (fl text off toks) = (Some c, fl text off toks) -> p c = true -> off < off').
  Proof.
    induction fuel as [| f IH]; intros off toks L F; [lia|]. cbn [take_bytes]. destruct (fl_current text off toks L) as (x & Ex & Hx). rewrite Ex. destruct x as [c|]; [|exists off; split; [lia|]; split; [reflexivity | discriminate]].
    assert (off < len) by (destruct (Nat.eq_dec off len) as [E|]; [specialize (Hx E); discriminate | lia]). destruct (p c) eqn:Pc.
    - rewrite fl_advance. destruct (IH (Nat.min (off + 1) len) toks ltac:(lia) ltac:(lia)) as (o' & B & -> & _). exists o'. split; [lia|]. split; [reflexivity|]. intros _ _ _. lia.
    - exists off. split; [lia|]. split; [reflexivity|]. intros d Ed Pd. injection Ed as <-. congruence.
  Qed.

  Lemma string_flat q e : forall fuel off toks, off <= len -> len - off < fuel -> exists off', off <= off' <= len /\ toml_string_loop src q e fuel (fl text off toks) = Some (fl text off' toks).
  Proof.
    induction fuel as [| f IH]; intros off toks L F; [lia|]. cbn [toml_string_loop]. destruct (fl_current text off toks L) as (x & Ex & Hx). rewrite Ex. destruct x as [c|]; [|exists off; split; [lia | reflexivity]].
    assert (off < len) by (destruct (Nat.eq_dec off len) as [E|]; [specialize (Hx E); discriminate | lia]). rewrite fl_advance. destruct (c =? q)%Z; [eexists; split; [|reflexivity]; lia|]. destruct (e && (c =? 92)%Z).
    - destruct (fl_current text (Nat.min (off + 1) len) toks ltac:(lia)) as (y & -> & _). destruct y as [d|].
      + rewrite fl_advance. destruct (IH (Nat.min (Nat.min (off + 1) len + 1) len) toks ltac:(lia) ltac:(lia)) as (o' & B & ->). exists o'. split; [lia | reflexivity].
      + destruct (IH (Nat.min (off + 1) len) toks ltac:(lia) ltac:(lia)) as (o' & B & ->). exists o'. split; [lia | reflexivity].
    - destruct (IH (Nat.min (off + 1) len) toks ltac:(lia) ltac:(lia)) as (o' & B & ->). exists o'. split; [lia | reflexivity].
  Qed.

  Lemma here_flat p off toks : off <= len -> exists b, here src p (fl text off toks) = (b, fl text off toks) /\ (b = true -> off < len) /\ (forall c, lx_current src (fl text off toks) = (Some c, fl text off toks) -> b = p c).
  Proof.
    intros L. unfold here. destruct (fl_current text off toks L) as (x & -> & Hx). eexists. split; [reflexivity|]. split.
    - destruct x; [|discriminate]. intros _. destruct (Nat.eq_dec off len) as [-> |]; [specialize (Hx eq_refl); discriminate | lia].
    - intros c E. now injection E as ->.
  Qed.

  Lemma fuel_enough off : len - off < scan_fuel src.
  Proof. unfold scan_fuel. cbn [flat_source src_len]. lia. Qed.

  Definition moved (off : nat) (toks : list token) (r : option lexer) : Prop :=
    exists off' new, r = Some (fl text off' (toks ++ new)) /\ off < off' <= len /\ (new = [] \/ exists k, new = [Token k off off'] /\ k <> TEof).

  Lemma arm_flat off toks c : off <= len -> lx_current src (fl text off toks) = (Some c, fl text off toks) -> moved off toks (toml_arm src slice c (fl text off toks)).
  Proof.
    intros L Ec. pose proof (fl_inside off toks c L Ec) as In. unfold toml_arm, moved. destruct (toml_blank c) eqn:Hb.
    { unfold toml_whitespace. destruct (bytes_flat toml_blank (scan_fuel src) off toks L (fuel_enough off)) as (o' & B & -> & M). specialize (M c Ec Hb). cbn [option_map]. unfold token_if, lx_moved. rewrite !fl_pos. destruct (Nat.ltb_spec off o'); [|lia]. cbn [snd]. rewrite fl_add. eexists _, _. split; [reflexivity|]. split; [lia|]. right. eexists. split; [reflexivity | discriminate]. }
    destruct (c =? 35)%Z.
    { unfold toml_comment. rewrite fl_advance. destruct (take_flat text (fun c => negb ((c =? 10) || (c =? 13)))%Z (scan_fuel src) (Nat.min (off + 1) len) toks ltac:(lia) (fuel_enough _)) as (o' & B & ->). cbn [option_map]. rewrite fl_add. eexists _, _. split; [reflexivity|]. split; [lia|]. right. eexists. split; [reflexivity | discriminate]. }
    assert (St : forall q e k, k <> TEof -> moved off toks (toml_string src q e k (fl text off toks))).
    { intros q e k Nk. unfold toml_string, moved. rewrite fl_advance. destruct (string_flat q e (scan_fuel src) (Nat.min (off + 1) len) toks ltac:(lia) (fuel_enough _)) as (o' & B & ->). cbn [option_map]. rewrite fl_add. eexists _, _. split; [reflexivity|]. split; [lia|]. right. eexists. split; [reflexivity | assumption]. }
    destruct (c =? 34)%Z; [apply St; discriminate|]. destruct (c =? 39)%Z; [apply St; discriminate|]. clear St. destruct (toml_digit c || toml_sign c) eqn:Hn.
    { unfold toml_number. destruct (here_flat toml_sign off toks L) as (b & -> & _ & Hbs). specialize (Hbs c Ec). assert (T : exists o', take_bytes src toml_digit (scan_fuel src) (if b then lx_advance src (fl text off toks) 1 else fl text off toks) = Some (fl text o' toks) /\ off < o' <= len).
      { rewrite Hbs. destruct (toml_sign c).
        - rewrite fl_advance. destruct (bytes_flat toml_digit (scan_fuel src) (Nat.min (off + 1) len) toks ltac:(lia) (fuel_enough _)) as (o' & B & -> & _). exists o'. split; [reflexivity | lia].
        - rewrite orb_false_r in Hn. destruct (bytes_flat toml_digit (scan_fuel src) off toks L (fuel_enough _)) as (o' & B & -> & M). exists o'. split; [reflexivity|]. specialize (M c Ec Hn). lia. }
      destruct T as (o' & -> & B). destruct (here_flat (Z.eqb 46) o' toks ltac:(lia)) as (d & -> & _). destruct d.
      - rewrite fl_advance. destruct (bytes_flat toml_digit (scan_fuel src) (Nat.min (o' + 1) len) toks ltac:(lia) (fuel_enough _)) as (o2 & B2 & -> & _). rewrite fl_add. eexists _, _. split; [reflexivity|]. split; [lia|]. right. eexists. split; [reflexivity | discriminate].
      - rewrite fl_add. eexists _, _. split; [reflexivity|]. split; [lia|]. right. eexists. split; [reflexivity | discriminate]. }
    destruct (toml_letter c) eqn:Hl.
    { unfold toml_identifier. destruct (bytes_flat toml_word (scan_fuel src) off toks L (fuel_enough _)) as (o' & B & -> & M). assert (W : toml_word c = true) by (unfold toml_word; now rewrite Hl). specialize (M c Ec W). cbn [option_map]. rewrite !fl_pos, fl_add. eexists _, _. split; [reflexivity|]. split; [lia|]. right. eexists. split; [reflexivity|]. match goal with |- (if ?b then _ else _) <> _ => destruct b end; discriminate. }
    assert (Sg : forall k, k <> TEof -> moved off toks (Some (toml_single src k (fl text off toks)))).
    { intros k Nk. unfold toml_single, moved. rewrite fl_advance, fl_add. eexists _, _. split; [reflexivity|]. split; [lia|]. right. eexists. split; [reflexivity | assumption]. }
    assert (Db : forall d one two, one <> TEof -> two <> TEof -> moved off toks (Some (toml_doubled src d one two (fl text off toks)))).
    { intros d one two N1 N2. unfold toml_doubled, moved. rewrite fl_advance. destruct (here_flat (Z.eqb d) (Nat.min (off + 1) len) toks ltac:(lia)) as (b & -> & _). destruct b; rewrite ?fl_advance, fl_add; (eexists _, _; split; [reflexivity|]; split; [lia|]; right; eexists; split; [reflexivity | assumption]). }
    fold (moved off toks (match toml_punctuation src c (fl text off toks) with Some l' => Some l' | None => Some (lx_advance src (fl text off toks) 1) end)).
    unfold toml_punctuation. destruct (c =? 91)%Z; [apply Db; discriminate|]. destruct (c =? 93)%Z; [apply Db; discriminate|]. destruct (c =? 123)%Z; [apply Sg; discriminate|]. destruct (c =? 125)%Z; [apply Sg; discriminate|].
    destruct (c =? 44)%Z; [apply Sg; discriminate|]. destruct (c =? 46)%Z; [apply Sg; discriminate|]. destruct (c =? 61)%Z; [apply Sg; discriminate|].
    exists (Nat.min (off + 1) len), []. rewrite fl_advance, app_nil_r. split; [reflexivity|]. split; [lia | now left].
  Qed.

  Definition long_tok (t : token) : Prop := tk_kind t <> TEof /\ tk_start t < tk_end t.
  Lemma run_flat : forall fuel off toks, off <= len -> len - off < fuel ->
    exists e new, toml_run src slice fuel (fl text off toks) = Some (fl text e (toks ++ new)) /\ off <= e <= len /\ in_order off new e /\ Forall long_tok new.
  Proof.
    induction fuel as [| f IH]; intros off toks L F; [lia|]. cbn [toml_run]. rewrite fl_more.
    assert (St : exists e new, Some (fl text off toks) = Some (fl text e (toks ++ new)) /\ off <= e <= len /\ in_order off new e /\ Forall long_tok new) by (exists off, []; rewrite app_nil_r; split; [reflexivity|]; split; [lia|]; split; [cbn; lia | constructor]).
    destruct (Nat.ltb_spec off len); [|exact St]. destruct (fl_current text off toks L) as (x & Ex & Hx). rewrite Ex. destruct x as [c|]; [|exact St]. clear St.
    destruct (arm_flat off toks c L Ex) as (o' & new & -> & B & N). destruct (IH o' (toks ++ new) ltac:(lia) ltac:(lia)) as (e & more & -> & Be & O & Fo). exists e, (new ++ more). rewrite app_assoc. split; [reflexivity|]. split; [lia|].
    destruct N as [-> | (k & -> & Kk)]; cbn [app].
    - split; [|assumption]. destruct more as [| t r]; cbn in *; [lia|]. destruct O as (? & ? & ?). split; [lia|]. split; assumption.
    - split; [cbn; split; [lia|]; split; [lia | assumption]|]. constructor; [split; [assumption | cbn; lia] | assumption].
  Qed.

  Lemma toml_lex_flat : exists e toks, toml_lex src slice = Some (toks ++ [Token TEof e e]) /\ e <= len /\ in_order 0 toks e /\ Forall long_tok toks.
  Proof.
    unfold toml_lex. rewrite fl_new. destruct (run_flat (scan_fuel src) 0 [] ltac:(lia) (fuel_enough 0)) as (e & toks & -> & B & O & F). exists e, toks. unfold add_eof. rewrite fl_pos, fl_add. cbn [app fl lx_toks]. split; [reflexivity|]. split; [lia|]. now split.
  Qed.
End Flat.

(** ** The parser *)
Lemma in_order_len : forall toks a b, in_order a toks b -> a <= b /\ toklen toks <= b - a.
Proof. induction toks as [| t r IH]; intros a b O; cbn [in_order] in O; [cbn; lia|]. destruct O as (O1 & O2 & O3). apply IH in O3. rewrite toklen_cons. lia. Qed.

Lemma trivia_split ign ts : trivia ign ts ++ no_trivia ign ts = ts.
Proof. induction ts as [| t r IH]; [reflexivity|]. cbn. destruct (ign (tk_kind t)); cbn; now rewrite ?IH. Qed.
Lemma no_trivia_length ign ts : length (no_trivia ign ts) <= length ts.
Proof. induction ts as [| t r IH]; [reflexivity|]. cbn. destruct (ign (tk_kind t)); cbn; lia. Qed.

Lemma loop_sees toks : (Z.of_nat (toklen toks) < 2 ^ 32)%Z -> forall fuel s rest trees, sees toks s rest trees -> length rest < fuel ->
  exists s', toml_loop fuel s = Some s' /\ sees toks s' [] (trees ++ map tokleaf rest) /\ ps_errs s' = ps_errs s.
Proof.
  intros Fit. induction fuel as [| f IH]; intros s rest trees S L; [lia|]. cbn [toml_loop]. rewrite (sees_current toks _ _ _ S). destruct rest as [| t rest]; cbn [hd_error]; [exists s; rewrite app_nil_r; split; [reflexivity|]; split; [assumption | reflexivity]|].
  pose proof (sees_bump toml_ignored toks Fit s t rest trees S) as S1. destruct (IH _ _ _ S1) as (s' & -> & S2 & E2). { pose proof (no_trivia_length toml_ignored rest). cbn [length] in L. lia. }
  exists s'. split; [reflexivity|]. rewrite bump_errs in E2. split; [|assumption]. rewrite <- app_assoc in S2. cbn [app map] in *. rewrite <- map_app, trivia_split in S2. exact S2.
Qed.

Lemma parse_tokens_tree toks len : (Z.of_nat (toklen toks) < 2 ^ 32)%Z -> toml_parse_tokens toks len = Some (gnode TRoot (map tokleaf (no_trivia toml_ignored toks)), []).
Proof.
  intros Fit. unfold toml_parse_tokens. destruct (sees_new toml_ignored toks Fit len []) as [S E]. set (s0 := ps_new _ _ _ _) in *. destruct (loop_sees toks Fit (Datatypes.S (length toks)) s0 _ _ S) as (s1 & -> & S1 & E1). { pose proof (no_trivia_length toml_ignored toks). lia. }
  unfold checkpoint. assert (length (ps_sink s0) = length (map tokleaf (trivia toml_ignored toks))) as -> by (destruct S as (_ & _ & _ & <- & _); now rewrite map_length).
  destruct (sees_finish toml_ignored toks Fit s1 _ _ _ (ps_index s0) TRoot S1) as (n & s2 & -> & _ & E2). now rewrite E2, E1, E.
Qed.
