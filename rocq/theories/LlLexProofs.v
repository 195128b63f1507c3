(** The LLVM IR lexer. *)
From Verif Require Import Base Utf8 Utf8Facts ScanSpec CursorModel CursorSpec CursorProofs RopeModel LexModel LexSpec LexProofs LexLoopProofs.
From Verif Require Import JsonModel JsonLangSpec JsonLexProofs LangModel LangSpec LangLexProofs IniModel LlModel LlSpec.
From Verif Require XmlLexProofs.

Lemma run_full P p cs : (forall c, p c = true <-> P c) -> full_run P (char_run p cs) (drop_run p cs).
Proof. exact (XmlLexProofs.run_spec P p cs). Qed.
Lemma full_run_is P p s r : (forall c, p c = true <-> P c) -> full_run P s r -> char_run p (s ++ r) = s /\ drop_run p (s ++ r) = r.
Proof. exact (XmlLexProofs.run_plain P p s r). Qed.

Lemma digitb c : ascii_digit_c c = true <-> vdigit c.
Proof. unfold ascii_digit_c, vdigit. rewrite andb_true_iff, !Z.leb_le. reflexivity. Qed.
Lemma figureb c : ascii_digit_c c || (c =? 46)%Z = true <-> (vdigit c \/ c = 46%Z).
Proof. now rewrite orb_true_iff, digitb, Z.eqb_eq. Qed.
Lemma startb alpha c : ll_start alpha c = true <-> vstart alpha c.
Proof. unfold ll_start, vstart. now rewrite !orb_true_iff, !Z.eqb_eq. Qed.
Lemma nameb alnum c : ll_name alnum c = true <-> vname alnum c.
Proof. unfold ll_name, vname. rewrite !orb_true_iff, !Z.eqb_eq. cbn [In lit]. split; intros [H | H]; try (now left); right; cbn in *; intuition lia. Qed.
Lemma lineb c : negb ((c =? 10) || (c =? 13))%Z = true <-> (c <> 10%Z /\ c <> 13%Z).
Proof. rewrite negb_true_iff, orb_false_iff, !Z.eqb_neq. reflexivity. Qed.

Definition line_c (c : Z) : bool := negb ((c =? 10) || (c =? 13))%Z.
Definition figure_c (c : Z) : bool := ascii_digit_c c || (c =? 46)%Z.
(** One token: its kind, its text and the rest *)
Definition ll1 (alpha alnum : Z -> bool) (c : Z) (r : list Z) : nat * list Z * list Z :=
  let run k p := (k, c :: char_run p r, drop_run p r) in
  match ll_single c with
  | Some k => (k, [c], r)
  | None =>
      match ll_variable c with
      | Some k => run k (ll_name alnum)
      | None =>
          if (c =? 59)%Z then run LvComment line_c
          else if ascii_digit_c c || (c =? 45)%Z then run LvNumber figure_c
          else if (c =? 34)%Z then let '(_, b, t) := str_run false r in (LvString, c :: b, t)
          else if ll_start alpha c then run LvKeyword (ll_name alnum)
          else (LvError, [c], r)
      end
  end.

Lemma ll1_text alpha alnum c r : let '(_, s, t) := ll1 alpha alnum c r in s ++ t = c :: r /\ s <> [].
Proof.
  assert (R : forall p, (c :: char_run p r) ++ drop_run p r = c :: r /\ c :: char_run p r <> []) by (intros p; split; [cbn; now rewrite run_drop | discriminate]).
  assert (O : [c] ++ r = c :: r /\ [c] <> []) by (split; [reflexivity | discriminate]).
  unfold ll1. cbv zeta. destruct (ll_single c); [exact O|]. destruct (ll_variable c); [apply R|]. destruct (c =? 59)%Z; [apply R|]. destruct (_ || _); [apply R|].
  destruct (c =? 34)%Z; [|destruct (ll_start alpha c); [apply R | exact O]]. pose proof (str_run_app r false) as E. destruct (str_run false r) as [[ok b] t]. split; [cbn; now rewrite E | discriminate].
Qed.

Lemma single_in c k : ll_single c = Some k -> (k = LvWhitespace /\ In c [32; 9]%Z) \/ (k = LvNewline /\ In c [10; 13]%Z) \/ In (c, k) marks.
Proof.
  unfold ll_single. repeat (match goal with |- context [(c =? ?n)%Z] => destruct (Z.eqb_spec c n) as [-> |] end; cbn [orb]; [intros [= <-]; cbn; auto 20|]). discriminate.
Qed.
Lemma single_blank c : In c [32; 9]%Z -> ll_single c = Some LvWhitespace.
Proof. intros [<- | [<- | []]]; reflexivity. Qed.
Lemma single_line c : In c [10; 13]%Z -> ll_single c = Some LvNewline.
Proof. intros [<- | [<- | []]]; reflexivity. Qed.
Lemma single_mark c k : In (c, k) marks -> ll_single c = Some k.
Proof. unfold marks. cbn [In]. intros H. repeat (destruct H as [H | H]; [apply pair_equal_spec in H; destruct H as [<- <-]; reflexivity|]). destruct H. Qed.
Lemma single_small c k : ll_single c = Some k -> (0 <= c < 128)%Z.
Proof.
  unfold ll_single. repeat (match goal with |- context [(c =? ?n)%Z] => destruct (Z.eqb_spec c n) as [-> |] end; cbn [orb]; [intros _; lia|]). discriminate.
Qed.
Lemma variable_in c k : ll_variable c = Some k <-> In (c, k) sigils.
Proof.
  unfold ll_variable, sigils. cbn [In]. split.
  - repeat (match goal with |- context [(c =? ?n)%Z] => destruct (Z.eqb_spec c n) as [-> |] end; [intros [= <-]; auto|]). discriminate.
  - intros H. repeat (destruct H as [H | H]; [apply pair_equal_spec in H; destruct H as [<- <-]; reflexivity|]). destruct H.
Qed.
Lemma variable_small c k : ll_variable c = Some k -> ll_single c = None /\ (0 <= c < 128)%Z.
Proof. rewrite variable_in. unfold sigils. cbn [In]. intros H. repeat (destruct H as [H | H]; [apply pair_equal_spec in H; destruct H as [<- _]; split; [reflexivity | lia]|]). destruct H. Qed.

(** The wide letters begin no piece *)
Definition narrow (alpha : Z -> bool) (c : Z) : Prop := vstart alpha c -> (c < 128)%Z.

Lemma ll1_piece alpha alnum c r : narrow alpha c -> let '(k, s, t) := ll1 alpha alnum c r in ll_piece alpha alnum (Some k) s t.
Proof.
  intros W. unfold ll1. cbv zeta. destruct (ll_single c) as [k|] eqn:E1.
  - destruct (single_in c k E1) as [[-> H] | [[-> H] | H]]; [now apply PBlank | now apply PLine | now apply PMark].
  - destruct (ll_variable c) as [k|] eqn:E2; [apply PVariable; [now apply variable_in | apply run_full, nameb]|].
    destruct (Z.eqb_spec c 59) as [-> | N1]; [apply PComment, run_full, lineb|].
    destruct (ascii_digit_c c || (c =? 45)%Z) eqn:E3; [apply PNumber; [rewrite orb_true_iff, digitb, Z.eqb_eq in E3; assumption | apply run_full, figureb]|].
    destruct (Z.eqb_spec c 34) as [-> | N2].
    + pose proof (str_run_body r false) as B. assert (T : fst (fst (str_run false r)) = false -> snd (str_run false r) = []).
      { clear. generalize false at 1 3. induction r as [| c r IH]; intros e; cbn [str_run]; [reflexivity|]. destruct (_ && _); [discriminate|]. specialize (IH (negb e && (c =? 92)%Z)). now destruct (str_run (negb e && (c =? 92)%Z) r) as [[ok b] t]. }
      cbn beta iota in B. destruct (str_run false r) as [[ok b] t]. cbn [fst snd] in T. destruct ok; [destruct B as (b' & -> & B); now apply PString|]. rewrite T by reflexivity.
      destruct B as [B | (b' & -> & B)]; [now apply PStringOpen | now apply PStringEscape].
    + destruct (ll_start alpha c) eqn:E4; [apply startb in E4; apply PWord; [assumption | now apply W | apply run_full, nameb]|]. apply orb_false_iff in E3. destruct E3 as [D M]. apply PError.
      * cbn [In]. intros H. apply Z.eqb_neq in M. destruct H as [<- | [<- | [<- | [<- | [<- | [<- | [<- | []]]]]]]]; (discriminate || contradiction).
      * intros k H. apply variable_in in H. congruence.
      * intros k H. apply single_mark in H. congruence.
      * intros H. apply digitb in H. congruence.
      * intros H. apply startb in H. congruence.
Qed.

Lemma digit_none c : vdigit c \/ c = 45%Z -> ll_single c = None /\ ll_variable c = None /\ (c =? 59)%Z = false /\ ascii_digit_c c || (c =? 45)%Z = true.
Proof.
  unfold vdigit. intros H. unfold ll_single, ll_variable, ascii_digit_c. repeat (match goal with |- context [(c =? ?n)%Z] => destruct (Z.eqb_spec c n); [try lia|] end); cbn [orb]; repeat split; try reflexivity; destruct (Z.leb_spec 48 c), (Z.leb_spec c 57); cbn; lia || reflexivity.
Qed.
Lemma start_none alpha c : letters alpha -> vstart alpha c -> ll_single c = None /\ ll_variable c = None /\ (c =? 59)%Z = false /\ ascii_digit_c c || (c =? 45)%Z = false /\ (c =? 34)%Z = false /\ ll_start alpha c = true.
Proof.
  intros Al H. pose proof (proj2 (startb alpha c) H) as S'. assert (R : (128 <= c \/ 65 <= c <= 90 \/ 97 <= c <= 122 \/ c = 95 \/ c = 46)%Z).
  { destruct H as [H | [-> | ->]]; [|lia | lia]. destruct (Z.ltb_spec c 128) as [L | L]; [|now left]. destruct (Al c H L); lia. }
  unfold ll_single, ll_variable, ascii_digit_c. repeat (match goal with |- context [(c =? ?n)%Z] => destruct (Z.eqb_spec c n); [lia|] end); cbn [orb]. repeat split; try reflexivity; try assumption. destruct (Z.leb_spec 48 c), (Z.leb_spec c 57); cbn; lia || reflexivity.
Qed.
Lemma lit_run b : literal_body 34 (Some 92%Z) b -> forall r, (snd (fst (str_run false (b ++ 34%Z :: r))), snd (str_run false (b ++ 34%Z :: r))) = (b ++ [34%Z], r) /\
  (snd (fst (str_run false b)), snd (str_run false b)) = (b, []) /\ (snd (fst (str_run false (b ++ [92%Z]))), snd (str_run false (b ++ [92%Z]))) = (b ++ [92%Z], []).
Proof.
  induction 1 as [| c b N1 N2 _ IH | x c b E _ IH]; intros r.
  - repeat split.
  - specialize (IH r). cbn [app str_run negb andb]. assert (c <> 92%Z) by congruence. destruct (Z.eqb_spec c 34); [contradiction|]. destruct (Z.eqb_spec c 92); [contradiction|].
    destruct (str_run false (b ++ 34%Z :: r)) as [[? ?] ?], (str_run false b) as [[? ?] ?], (str_run false (b ++ [92%Z])) as [[? ?] ?]. cbn [fst snd] in *. destruct IH as (A & B & C). injection A as -> ->. injection B as -> ->. injection C as -> ->. repeat split.
  - injection E as <-. specialize (IH r). cbn [app str_run negb andb Z.eqb Pos.eqb].
    destruct (str_run false (b ++ 34%Z :: r)) as [[? ?] ?], (str_run false b) as [[? ?] ?], (str_run false (b ++ [92%Z])) as [[? ?] ?]. cbn [fst snd] in *. destruct IH as (A & B & C). injection A as -> ->. injection B as -> ->. injection C as -> ->. repeat split.
Qed.

Lemma piece_ll1 alpha alnum k s r : letters alpha -> ll_piece alpha alnum k s r -> exists c s', s = c :: s' /\ narrow alpha c /\ ll1 alpha alnum c (s' ++ r) = (match k with Some k => k | None => 0 end, s, r).
Proof.
  intros Al P. destruct P as [c r H | c r H | s r H | c k s r H R | c k r H | c s r H R | b r H | b H | b H | c s r H L R | c r N1 N2 N3 N4 N5].
  - exists c, []. split; [reflexivity|]. split; [intros _; destruct H as [<- | [<- | []]]; lia|]. unfold ll1. now rewrite (single_blank c H).
  - exists c, []. split; [reflexivity|]. split; [intros _; destruct H as [<- | [<- | []]]; lia|]. unfold ll1. now rewrite (single_line c H).
  - exists 59%Z, s. split; [reflexivity|]. split; [intros _; lia|]. unfold ll1. cbn [ll_single ll_variable Z.eqb Pos.eqb orb]. destruct (full_run_is _ line_c s r lineb H) as [-> ->]. reflexivity.
  - exists c, s. split; [reflexivity|]. apply variable_in in H. destruct (variable_small c k H) as [E L]. split; [intros _; lia|]. unfold ll1. rewrite E, H. destruct (full_run_is _ (ll_name alnum) s r (nameb alnum) R) as [-> ->]. reflexivity.
  - exists c, []. split; [reflexivity|]. apply single_mark in H. split; [intros _; apply single_small in H; lia|]. unfold ll1. now rewrite H.
  - exists c, s. split; [reflexivity|]. destruct (digit_none c H) as (E1 & E2 & E3 & E4). split; [intros _; unfold vdigit in H; lia|]. unfold ll1. rewrite E1, E2, E3, E4. destruct (full_run_is _ figure_c s r figureb R) as [-> ->]. reflexivity.
  - exists 34%Z, (b ++ [34%Z]). split; [reflexivity|]. split; [intros _; lia|]. unfold ll1. cbn [ll_single ll_variable Z.eqb Pos.eqb orb ascii_digit_c Z.leb andb Z.compare Pos.compare Pos.compare_cont]. rewrite <- app_assoc. cbn [app].
    destruct (lit_run b H r) as (A & _ & _). destruct (str_run false (b ++ 34%Z :: r)) as [[ok x] t]. cbn [fst snd] in A. now injection A as -> ->.
  - exists 34%Z, b. split; [reflexivity|]. split; [intros _; lia|]. unfold ll1. cbn [ll_single ll_variable Z.eqb Pos.eqb orb ascii_digit_c Z.leb andb Z.compare Pos.compare Pos.compare_cont]. rewrite app_nil_r.
    destruct (lit_run b H []) as (_ & A & _). destruct (str_run false b) as [[ok x] t]. cbn [fst snd] in A. now injection A as -> ->.
  - exists 34%Z, (b ++ [92%Z]). split; [reflexivity|]. split; [intros _; lia|]. unfold ll1. cbn [ll_single ll_variable Z.eqb Pos.eqb orb ascii_digit_c Z.leb andb Z.compare Pos.compare Pos.compare_cont]. rewrite app_nil_r.
    destruct (lit_run b H []) as (_ & _ & A). destruct (str_run false (b ++ [92%Z])) as [[ok x] t]. cbn [fst snd] in A. now injection A as -> ->.
  - exists c, s. split; [reflexivity|]. split; [now intros _|]. destruct (start_none alpha c Al H) as (E1 & E2 & E3 & E4 & E5 & E6). unfold ll1. rewrite E1, E2, E3, E4, E5, E6. destruct (full_run_is _ (ll_name alnum) s r (nameb alnum) R) as [-> ->]. reflexivity.
  - exists c, []. split; [reflexivity|]. split; [now intros H|]. unfold ll1. cbn [In] in N1. destruct (ll_single c) as [k|] eqn:E1.
    { destruct (single_in c k E1) as [[-> H] | [[-> H] | H]]; [cbn [In] in H; tauto | cbn [In] in H; tauto | now destruct (N3 k)]. }
    destruct (ll_variable c) as [k|] eqn:E2; [apply variable_in in E2; now destruct (N2 k)|]. destruct (Z.eqb_spec c 59); [subst; tauto|].
    destruct (ascii_digit_c c || (c =? 45)%Z) eqn:E3; [rewrite orb_true_iff, digitb, Z.eqb_eq in E3; destruct E3; [contradiction | subst; tauto]|]. destruct (Z.eqb_spec c 34); [subst; tauto|].
    destruct (ll_start alpha c) eqn:E4; [apply startb in E4; contradiction | reflexivity].
Qed.

Lemma ll_pieces_unique alpha alnum k s r k' s' r' : letters alpha -> s ++ r = s' ++ r' -> ll_piece alpha alnum k s r -> ll_piece alpha alnum k' s' r' -> k = k' /\ s = s'.
Proof.
  intros Al E P P'. destruct (piece_ll1 alpha alnum k s r Al P) as (c & x & -> & _ & A). destruct (piece_ll1 alpha alnum k' s' r' Al P') as (c' & x' & -> & _ & A').
  cbn [app] in E. injection E as <- E. rewrite E in A. rewrite A in A'. injection A' as K <- _. split; [|reflexivity]. destruct P, P'; congruence.
Qed.

Section Lex.
  Variable (alpha alnum : Z -> bool) (src : source) (text : str).
  Hypothesis Hs : serves src text.
  Notation view := (view src text).

  Lemma ll_string_view : forall fuel cs l, view l cs -> length cs < fuel -> exists l', ll_string src fuel l = Some l' /\ view l' (snd (str_run false cs)) /\ lx_toks l' = lx_toks l.
  Proof.
    induction fuel as [| f IH]; intros cs l V L; [lia|]. cbn [ll_string]. destruct (view_current src text Hs l cs V) as (l1 & -> & V1 & O1 & T1). destruct cs as [| c r]; cbn [hd_error].
    - exists l1. now split.
    - cbn [length] in L. destruct (Z.eqb_spec c 34) as [-> | N].
      + destruct (view_advance1 src text Hs l1 34 r ltac:(lia) V1) as (V2 & T2). exists (lx_advance src l1 1). split; [reflexivity|]. split; [exact V2 | congruence].
      + destruct (Z.eqb_spec c 92) as [-> | N'].
        * destruct (view_advance1 src text Hs l1 92 r ltac:(lia) V1) as (V2 & T2). destruct (view_current src text Hs _ r V2) as (l3 & -> & V3 & O3 & T3). destruct r as [| d r]; cbn [hd_error].
          -- assert (E0 : lx_advance src l3 0 = l3).
             { pose proof (view_pos src text l3 [] V3) as P. unfold lx_pos in P. destruct l3 as [[o a x] ts]. unfold lx_advance, advance_bytes. cbn [lx_cur lx_toks cu_off cu_start cu_text length encode] in *. rewrite (Hlen src text Hs). do 2 f_equal. lia. }
             rewrite E0. destruct (IH [] l3 V3) as (l' & E & V' & T'); [cbn [length] in *; lia|]. exists l'. split; [exact E|]. split; [exact V' | congruence].
          -- destruct (view_advance src text Hs l3 d r V3) as (V4 & _ & T4). cbv zeta in *. destruct (IH r _ V4) as (l' & E & V' & T'); [cbn [length] in L; lia|]. exists l'. split; [exact E|]. split; [|congruence].
             cbn [str_run negb andb Z.eqb Pos.eqb]. now destruct (str_run false r) as [[ok b] t].
        * destruct (view_current src text Hs l1 _ V1) as (l3 & -> & V3 & O3 & T3). cbn [hd_error]. destruct (view_advance src text Hs l3 c r V3) as (V4 & _ & T4). cbv zeta in *. destruct (IH r _ V4) as (l' & E & V' & T'); [lia|]. exists l'. split; [exact E|]. split; [|congruence].
          cbn [str_run negb andb]. destruct (Z.eqb_spec c 34); [contradiction|]. destruct (Z.eqb_spec c 92); [contradiction|]. now destruct (str_run false r) as [[ok b] t].
  Qed.

  Lemma ll_round_view l c r : narrow alpha c -> view l (c :: r) ->
    exists l1 l2, lx_current src l = (Some c, l1) /\ ll_round alpha alnum src c l l1 = Some l2 /\ let '(k, _, t) := ll1 alpha alnum c r in stepped src text l l2 (Some k) t.
  Proof.
    intros W V. destruct (view_current src text Hs l _ V) as (l1 & E1 & V1 & O1 & T1). cbn [hd_error] in E1. exists l1.
    assert (Arm : exists k l2, ll_arm alpha alnum src c l1 = Some (k, l2) /\ lx_toks l2 = lx_toks l1 /\ let '(k', _, t) := ll1 alpha alnum c r in k' = k /\ view l2 t).
    { assert (One : forall k : nat, (0 <= c < 128)%Z -> exists k' l2, Some (k, lx_advance src l1 1) = Some (k', l2) /\ lx_toks l2 = lx_toks l1 /\ k = k' /\ view l2 r).
      { intros k A. destruct (view_advance1 src text Hs l1 c r A V1) as (V2 & T2). exists k, (lx_advance src l1 1). split; [reflexivity|]. split; [assumption|]. split; [reflexivity | assumption]. }
      assert (Run : forall (k : nat) p, (0 <= c < 128)%Z -> exists k' l2, option_map (pair k) (lx_take_while src (scan_fuel src) p (lx_advance src l1 1)) = Some (k', l2) /\ lx_toks l2 = lx_toks l1 /\ k = k' /\ view l2 (drop_run p r)).
      { intros k p A. destruct (view_advance1 src text Hs l1 c r A V1) as (V2 & T2). destruct (view_take src text Hs _ r p V2) as (l3 & -> & V3 & _ & T3). exists k, l3. split; [reflexivity|]. split; [congruence|]. now split. }
      unfold ll_arm, ll1. cbv zeta. destruct (ll_single c) as [k|] eqn:E2; [apply One; now apply single_small in E2|]. destruct (ll_variable c) as [k|] eqn:E3; [apply Run; now apply variable_small in E3|].
      destruct (Z.eqb_spec c 59) as [-> |]; [apply Run; lia|]. destruct (ascii_digit_c c || (c =? 45)%Z) eqn:E4; [apply Run; rewrite orb_true_iff, digitb, Z.eqb_eq in E4; unfold vdigit in E4; lia|].
      destruct (Z.eqb_spec c 34) as [-> |].
      - destruct (view_advance1 src text Hs l1 34 r ltac:(lia) V1) as (V2 & T2). destruct (ll_string_view (scan_fuel src) r _ V2 (view_length no_char no_char src text Hs _ _ V2)) as (l3 & -> & V3 & T3). cbn [option_map].
        exists LvString, l3. split; [reflexivity|]. split; [congruence|]. destruct (str_run false r) as [[ok b] t]. now split.
      - destruct (ll_start alpha c) eqn:E5; [apply Run; apply startb in E5; specialize (W E5); split; [|assumption]; destruct (view_head src text l1 c r V1) as (m & M & _); destruct M as (M & _); apply Forall_cons_iff in M; destruct M as [M _]; unfold is_scalar in M; lia|].
        destruct (view_advance src text Hs l1 c r V1) as (V2 & _ & T2). exists LvError, (lx_advance src l1 (char_len c)). split; [reflexivity|]. split; [assumption|]. split; [reflexivity | assumption]. }
    destruct Arm as (k & l2 & A & T2 & R). pose proof (ll1_text alpha alnum c r) as Tx. destruct (ll1 alpha alnum c r) as [[k' s] t]. destruct R as [-> V2]. destruct Tx as [Tx Ne].
    unfold ll_round. rewrite A. eexists. split; [exact E1|]. split; [reflexivity|].
    assert (St : stepped src text l (add_token l2 k (lx_pos l) (lx_pos l2)) (Some k) t) by (split; [exact V2|]; cbn [add_token lx_toks]; rewrite T2, T1; reflexivity).
    rewrite (guard_moved no_char no_char src text l _ s t (Some k)); [exact St | now rewrite Tx | exact Ne | exact St].
  Qed.

  Lemma ll_run_view (Al : letters alpha) cs ps : cut (ll_piece alpha alnum) cs ps -> forall fuel l, view l cs -> length cs < fuel ->
    exists l', ll_run alpha alnum src fuel l = Some l' /\ lx_toks l' = lx_toks l ++ spans (lx_pos l) ps /\ lx_pos l' = length text.
  Proof.
    induction 1 as [| k s r ps N P C IH]; intros fuel l V L; (destruct fuel as [| f]; [lia|]); cbn [ll_run]; unfold not_at_end; rewrite (Hlen src text Hs); pose proof (view_pos src text l _ V) as Vp.
    - cbn [encode length] in Vp. destruct (Nat.ltb_spec (lx_pos l) (length text)); [lia|]. exists l. split; [reflexivity|]. cbn [spans]. split; [now rewrite app_nil_r | lia].
    - destruct (piece_ll1 alpha alnum k s r Al P) as (c & x & -> & W & E). cbn [app] in *. destruct (ll_round_view l c (x ++ r) W V) as (l1 & l2 & E1 & E2 & St). rewrite E in St.
      assert (Lt : lx_pos l < length text) by (cbn [encode] in Vp; rewrite app_length, encode_char_length in Vp; pose proof (char_len_pos c); lia). apply Nat.ltb_lt in Lt. rewrite Lt, E1, E2.
      destruct St as [V2 T2]. destruct (IH f l2 V2) as (l' & E3 & T3 & O3); [cbn [length] in L; rewrite app_length in L; lia|]. exists l'. split; [exact E3|]. split; [|exact O3].
      assert (O2 : lx_pos l2 = lx_pos l + length (encode (c :: x))). { pose proof (view_pos src text l2 r V2). change (c :: x ++ r) with ((c :: x) ++ r) in Vp. rewrite encode_app, app_length in Vp. lia. }
      rewrite T3, T2, <- app_assoc. f_equal. cbn [spans]. rewrite <- O2. destruct k as [k|]; [reflexivity | now inversion P].
  Qed.

  Lemma ll_lex_cut (Al : letters alpha) cs ps : reads text 0 (length text) cs -> cut (ll_piece alpha alnum) cs ps ->
    ll_lex alpha alnum src = Some (spans 0 ps ++ [Token LvError (length text) (length text)]).
  Proof.
    intros R C. destruct (new_view src text Hs cs R) as [V O]. destruct (ll_run_view Al cs ps C (scan_fuel src) _ V (view_length no_char no_char src text Hs _ _ V)) as (l' & E & T & P).
    unfold ll_lex. rewrite E. cbn [option_map]. unfold add_eof. cbn [add_token lx_toks]. rewrite T, P, O. reflexivity.
  Qed.
End Lex.

Lemma ll_cut_exists alpha alnum : forall n cs, length cs <= n -> Forall (narrow alpha) cs -> exists ps, cut (ll_piece alpha alnum) cs ps.
Proof.
  induction n as [| n IH]; intros cs L F; (destruct cs as [| c r]; [exists []; constructor|]); [cbn in L; lia|].
  pose proof (ll1_text alpha alnum c r) as T. pose proof (ll1_piece alpha alnum c r (Forall_inv F)) as P. destruct (ll1 alpha alnum c r) as [[k s] t]. destruct T as [T N]. rewrite <- T in F. apply Forall_app in F. destruct F as [_ F].
  destruct (IH t) as (ps & C); [|assumption|]. { apply (f_equal (@length Z)) in T. rewrite app_length in T. destruct s; [contradiction|]. cbn [length] in *. lia. }
  exists ((Some k, s) :: ps). rewrite <- T. now constructor.
Qed.
