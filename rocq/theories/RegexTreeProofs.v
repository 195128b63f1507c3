(** Texts without quantifiers, alternatives, and groups in each other. *)
From Verif Require Import Base Utf8 Utf8Facts RopeModel RopeProofs CursorModel LexModel TreeModel TreeSpec TreeProofs ParserModel ParserSpec ParserProofs.
From Verif Require Import JsonLangSpec LangModel LangSpec LangParseProofs RegexModel RegexSpec RegexLexProofs RegexProofs.

Lemma ynext_id ys : ynext rx_ign ys = ys.
Proof. now destruct ys. Qed.
Lemma ytrivia_nil ys : ytrivia rx_ign ys = [].
Proof. now destruct ys. Qed.

Section Sits.
  Variable toks : list token.
  Hypothesis Hfit : (Z.of_nat (toklen toks) < 2 ^ 32)%Z.
  Notation sits := (sits toks).

  Lemma sits_peek s ys trees : sits s ys trees -> peek_kind s = option_map fst (hd_error ys).
  Proof. intros (rest & S & <-). unfold peek_kind. rewrite (sees_current _ _ _ _ S). now destruct rest. Qed.
  Lemma rx_bump s y ys trees : sits s (y :: ys) trees -> sits (bump rx_ign s) ys (trees ++ [yleaf y]) /\ ps_errs (bump rx_ign s) = ps_errs s.
  Proof. intros H. destruct (sits_bump rx_ign toks Hfit s y ys trees H) as [H1 H2]. rewrite ynext_id, ytrivia_nil in H1. now split. Qed.
  Lemma rx_bump_end s trees : sits s [] trees -> bump rx_ign s = s.
  Proof. intros (rest & S & E). destruct rest; [|discriminate]. rewrite bump_eq, (sees_current _ _ _ _ S). reflexivity. Qed.
  Lemma rx_advance s y ys trees : sits s (y :: ys) trees -> sits (ps_advance rx_ign s) ys trees.
  Proof.
    intros (rest & S & E). destruct rest as [| t rest]; [discriminate|]. injection E as <- <-. rewrite advance_eq. exists rest. split; [|reflexivity]. destruct S as (T & I & R & K & B & W & N). rewrite toklen_cons in W.
    assert (I' : ps_index s < length toks). { destruct (Nat.ltb_spec (ps_index s) (length toks)); [assumption|]. rewrite skipn_all2 in R by lia. discriminate. }
    unfold sees. cbn [set_index ps_toks ps_index ps_sink ps_errs ps_inc]. split; [assumption|]. split; [lia|]. split; [|split; [assumption|]; split; [assumption|]; split; [lia | assumption]].
    destruct (nth_error toks (ps_index s)) as [x|] eqn:E; [|apply nth_error_None in E; lia]. rewrite (skipn_nth _ _ _ E) in R. congruence.
  Qed.
  Lemma rx_expect k s ys trees : sits s ys trees -> exists ys' x, sits (snd (expect rx_ign k s)) ys' (trees ++ x) /\ (exists z, ys = z ++ ys') /\
    ((exists y, ys = y :: ys' /\ fst y = k /\ x = [yleaf y] /\ ps_errs (snd (expect rx_ign k s)) = ps_errs s) \/ at_kind s k = false /\ x = [] /\ ys' = ys).
  Proof.
    intros H. pose proof (sits_at toks s ys trees k H) as A. unfold expect, eat. destruct (at_kind s k) eqn:Ek; cbn [snd].
    - destruct ys as [| y ys]; [discriminate|]. symmetry in A. apply Nat.eqb_eq in A. destruct (rx_bump _ _ _ _ H) as [H1 H2]. exists ys, [yleaf y]. split; [assumption|]. split; [now exists [y]|]. left. exists y. now repeat split.
    - exists ys, []. rewrite app_nil_r. split; [exact H|]. split; [now exists []|]. right. now repeat split.
  Qed.
  Lemma rx_until k : forall n s ys trees, sits s ys trees -> exists ys', sits (advance_loop rx_ign (fun s => at_kind s k) n s) ys' trees /\ exists z, ys = z ++ ys'.
  Proof.
    induction n as [| n IH]; intros s ys trees H; [exists ys; split; [exact H | now exists []]|]. cbn [advance_loop]. rewrite (sits_end toks s ys trees H). destruct ys as [| y ys]; cbn [andb]; [exists []; split; [exact H | now exists []]|].
    destruct (negb (at_kind s k)); [|exists (y :: ys); split; [exact H | now exists []]]. apply rx_advance in H. destruct (IH _ _ _ H) as (ys' & H' & (z & ->)). exists ys'. split; [exact H' | now exists (y :: z)].
  Qed.
  Lemma rx_finish s ys pre ch i kind : sits s ys (pre ++ ch) -> exists id s' X, finish_at s (i, length pre) kind = Some ((Some id, gnode kind ch), s') /\
    sits s' ys (pre ++ [gnode kind ch]) /\ ps_errs s' = ps_errs s /\ ps_sink s' = X ++ [(Some id, gnode kind ch)] /\ length X = length pre.
  Proof.
    intros H. destruct (sits_finish rx_ign toks Hfit s ys pre ch i kind H) as (id & s' & E & H' & Er). pose proof (finish_eq _ _ _ _ _ E) as (n & _ & K & _). exists id, s', (firstn (length pre) (ps_sink s)). split; [assumption|]. split; [assumption|]. split; [assumption|]. split; [exact K|].
    apply firstn_length_le. rewrite (sits_sink toks s _ _ H), app_length. lia.
  Qed.

  (** The tokens to come: no quantifier, and the end of the stream is the last. *)
  Definition quiet (ys : list (nat * nat)) : Prop := Forall (fun y => ~ In (fst y) [RQuestion; RStar; RPlus]) ys /\ (ys = [] \/ exists zs n, ys = zs ++ [(REof, n)]).
  Lemma quiet_tail z ys : quiet (z ++ ys) -> quiet ys.
  Proof.
    intros [F E]. apply Forall_app in F. split; [apply F|]. destruct E as [E | (zs & n & E)]; [left; now apply app_eq_nil in E|]. destruct ys as [| y ys] using rev_ind; [now left|]. right. rewrite app_assoc in E. apply app_inj_tail in E. destruct E as [_ ->]. now exists ys, n.
  Qed.
  Lemma quiet_more y ys : quiet (y :: ys) -> fst y <> REof -> ys <> [].
  Proof. intros [_ [E | (zs & n & E)]] N ->; [discriminate|]. destruct zs as [| z zs]; [injection E as ->; contradiction|]. injection E as _ E. destruct zs; discriminate. Qed.

  Lemma quiet_parse : forall f left min s ys trees, sits s ys trees -> quiet ys ->
    match left with
    | None => 2 * length ys + 2 <= f
    | Some l => 2 * length ys + 1 <= f /\ exists id g X, l = (Some id, g) /\ ps_sink s = X ++ [l]
    end ->
    exists l' s' ys' pre L, rx_parse f left min s = Some (l', s') /\ trees = pre ++ match left with None => [] | Some l => [snd l] end /\ sits s' ys' (pre ++ L) /\ exists z, ys = z ++ ys'.
  Proof.
    induction f as [| f IH]; intros left min s ys trees H Q C; [destruct left; lia|]. destruct left as [l|].
    - destruct C as [Lf (id & g & X & -> & Es)].
      assert (Et : trees = map snd X ++ [g]). { destruct H as (rest & (_ & _ & _ & <- & _) & _). now rewrite Es, map_app. }
      cbn [rx_parse]. cbv zeta. destruct (rx_infix min s) eqn:Ei.
      + eexists _, _, ys, (map snd X), [g]. split; [reflexivity|]. split; [assumption|]. split; [now rewrite <- Et | now exists []].
      + cbn [fst]. rewrite (before_last s id g X Es). destruct (rx_expect RPipe s ys trees H) as (ys1 & x & H1 & (z1 & E1) & D). pose proof Q as Q1. rewrite E1 in Q1. apply quiet_tail in Q1.
        assert (L1 : S (length ys1) <= length ys). { destruct D as [(y & -> & _) | (A & _ & ->)]; [cbn; lia|]. exfalso. unfold rx_infix in Ei. unfold at_kind in A. destruct (peek_kind s) as [k|]; [|discriminate]. rewrite A in Ei. destruct (existsb _ _); [destruct (10 <? min)|]; discriminate. }
        assert (Lf1 : 2 * length ys1 + 2 <= f) by lia. destruct (IH None 2 _ ys1 _ H1 Q1 Lf1) as (l2 & s2 & ys2 & pre & L & -> & Ep & H2 & (z2 & E2)). rewrite app_nil_r in Ep. subst pre. rewrite Et, <- !app_assoc in H2. rewrite <- (map_length snd X).
        destruct (rx_finish s2 ys2 (map snd X) _ 0 RPattern H2) as (id3 & s3 & X3 & -> & H3 & _ & K3 & _). rewrite E2 in Q1. apply quiet_tail in Q1. assert (L2 : length ys2 <= length ys1) by (rewrite E2, app_length; lia).
        destruct (IH (Some (Some id3, gnode RPattern ([g] ++ x ++ L))) min s3 ys2 _ H3 Q1) as (l4 & s4 & ys4 & pre4 & L4 & E4 & P4 & H4 & (z4 & Z4)). { split; [lia|]. eexists _, _, X3. split; [reflexivity | exact K3]. }
        cbn [snd] in P4. apply app_inj_tail in P4. destruct P4 as [<- _]. exists l4, s4, ys4, (map snd X), L4. split; [exact E4|]. split; [assumption|]. split; [assumption|]. exists (z1 ++ z2 ++ z4). now rewrite E1, E2, Z4, <- !app_assoc.
      + exfalso. unfold rx_infix in Ei. rewrite (sits_peek _ _ _ H) in Ei. destruct ys as [| y ys]; [discriminate|]. cbn [hd_error option_map] in Ei. destruct (fst y =? RPipe); [destruct (1 <? min); discriminate|]. destruct (existsb (Nat.eqb (fst y)) [RQuestion; RStar; RPlus]) eqn:Eo; [|discriminate].
        apply existsb_exists in Eo. destruct Eo as (k & I & Ek). apply Nat.eqb_eq in Ek. destruct Q as [Q _]. inversion Q as [| ? ? Qy _]; subst. now apply Qy.
    - assert (G : forall s1 ys1 ch kind, sits s1 ys1 (trees ++ ch) -> (exists z, ys = z ++ ys1) -> exists l' s' ys' pre L, match finish_at s1 (checkpoint s) kind with None => None | Some (l, s2) => rx_parse f (Some l) min s2 end = Some (l', s') /\ trees = pre ++ [] /\ sits s' ys' (pre ++ L) /\ exists z, ys = z ++ ys').
      { intros s1 ys1 ch kind H1 (z1 & E1). unfold checkpoint. rewrite (sits_sink toks s ys trees H). destruct (rx_finish s1 ys1 trees ch (ps_index s) kind H1) as (id & s2 & X & -> & H2 & _ & K2 & _). pose proof Q as Q1. rewrite E1 in Q1. apply quiet_tail in Q1. assert (L1 : length ys1 <= length ys) by (rewrite E1, app_length; lia).
        destruct (IH (Some (Some id, gnode kind ch)) min s2 ys1 _ H2 Q1) as (l4 & s4 & ys4 & pre4 & L4 & E4 & P4 & H4 & (z4 & Z4)). { split; [lia|]. eexists _, _, X. split; [reflexivity | exact K2]. }
        cbn [snd] in P4. apply app_inj_tail in P4. destruct P4 as [<- _]. exists l4, s4, ys4, trees, L4. split; [exact E4|]. split; [now rewrite app_nil_r|]. split; [assumption|]. exists (z1 ++ z4). now rewrite E1, Z4, <- app_assoc. }
      cbn [rx_parse]. cbv zeta. rewrite (sits_peek _ _ _ H). destruct ys as [| y ys]; cbn [hd_error option_map].
      { change (existsb (Nat.eqb REof) [RHat; RDollar; RCharacter; RDot]) with false. change (REof =? RBackslash) with false. change (REof =? RLParen) with false. change (REof =? RLBrack) with false. cbv iota. rewrite (rx_bump_end s trees H). apply (G s [] []); [now rewrite app_nil_r | now exists []]. }
      destruct (rx_bump _ _ _ _ H) as [H1 _]. assert (Z1 : exists z, y :: ys = z ++ ys) by now exists [y]. pose proof Q as Q1. apply (quiet_tail [y]) in Q1. cbn [length] in *.
      destruct (existsb _ _); [now apply (G _ ys [yleaf y])|].
      destruct (Nat.eqb_spec (fst y) RBackslash) as [K |].
      { pose proof (quiet_more _ _ Q ltac:(rewrite K; discriminate)) as N. destruct ys as [| y2 ys]; [contradiction|]. apply (G _ ys [yleaf y]); [now apply (rx_advance _ y2) | now exists [y; y2]]. }
      destruct (Nat.eqb_spec (fst y) RLParen) as [K |].
      { assert (Lf1 : 2 * length ys + 2 <= f) by lia. destruct (IH None 0 _ ys _ H1 Q1 Lf1) as (l2 & s2 & ys2 & pre & L & -> & Ep & H2 & (z2 & E2)). rewrite app_nil_r in Ep. subst pre. rewrite <- app_assoc in H2. destruct (rx_expect RRParen s2 ys2 _ H2) as (ys3 & x & H3 & (z3 & E3) & _). rewrite <- !app_assoc in H3. apply (G _ ys3 _ _ H3). exists (y :: z2 ++ z3). cbn [app]. now rewrite E2, E3, <- app_assoc. }
      destruct (Nat.eqb_spec (fst y) RLBrack) as [K |].
      { unfold advance_until. destruct (rx_until RRBrack (length (ps_toks (bump rx_ign s)) - ps_index (bump rx_ign s)) _ _ _ H1) as (ys2 & H2 & (z2 & E2)). destruct (rx_expect RRBrack _ ys2 _ H2) as (ys3 & x & H3 & (z3 & E3) & _). rewrite <- app_assoc in H3. apply (G _ ys3 _ _ H3). exists (y :: z2 ++ z3). cbn [app]. now rewrite E2, E3, <- app_assoc. }
      now apply (G _ ys [yleaf y]).
  Qed.

  (** ** Alternatives *)
  Definition ychar (c : Z) : nat * nat := (RCharacter, length (encode [c])).
  Fixpoint ybarred (cs : list Z) : list (nat * nat) := match cs with [] => [(REof, 0)] | c :: r => (RPipe, 1) :: ychar c :: ybarred r end.
  Lemma char_parse f min s c ys trees : sits s (ychar c :: ys) trees -> exists id s' X, rx_parse (S f) None min s = rx_parse f (Some (Some id, char_tree c)) min s' /\ sits s' ys (trees ++ [char_tree c]) /\ ps_errs s' = ps_errs s /\
    ps_sink s' = X ++ [(Some id, char_tree c)] /\ length X = length trees.
  Proof.
    intros H. cbn [rx_parse]. cbv zeta. rewrite (sits_peek _ _ _ H). cbn [hd_error option_map ychar fst]. change (existsb (Nat.eqb RCharacter) [RHat; RDollar; RCharacter; RDot]) with true. cbv iota. destruct (rx_bump _ _ _ _ H) as [H1 Er]. unfold checkpoint. rewrite (sits_sink toks s _ _ H).
    destruct (rx_finish _ ys trees [yleaf (ychar c)] (ps_index s) RPattern H1) as (id & s2 & X & -> & H2 & Er2 & K2 & L2). exists id, s2, X. split; [reflexivity|]. split; [exact H2|]. split; [congruence|]. now split.
  Qed.
  Lemma stop2 s ys trees : sits s (ybarred ys) trees -> rx_infix 2 s = RxStop.
  Proof. intros H. unfold rx_infix. rewrite (sits_peek _ _ _ H). destruct ys; reflexivity. Qed.
  Lemma barred_parse : forall cs f s id g X, sits s (ybarred cs) (map snd X ++ [g]) -> ps_sink s = X ++ [(Some id, g)] -> 2 * length cs + 2 <= f ->
    exists id' s', rx_parse f (Some (Some id, g)) 0 s = Some ((Some id', alternatives g cs), s') /\ sits s' [(REof, 0)] (map snd X ++ [alternatives g cs]) /\ ps_errs s' = ps_errs s.
  Proof.
    induction cs as [| c cs IH]; intros f s id g X H K L; (destruct f as [| f]; [lia|]); cbn [rx_parse ybarred] in *; cbv zeta.
    - unfold rx_infix. rewrite (sits_peek _ _ _ H). cbn [hd_error option_map fst]. exists id, s. split; [reflexivity|]. now split.
    - unfold rx_infix at 1. rewrite (sits_peek _ _ _ H). cbn [hd_error option_map fst]. change (RPipe =? RPipe) with true. change (1 <? 0) with false. cbv iota. rewrite (before_last s id g X K). destruct (rx_expect RPipe s _ _ H) as (ys1 & x & H1 & _ & D).
      destruct D as [(y & Ey & _ & -> & Er1) | (A & _)]; [|rewrite (sits_at toks s _ _ RPipe H) in A; discriminate]. injection Ey as <- <-. destruct f as [| f]; [cbn in L; lia|].
      destruct (char_parse f 2 _ c _ _ H1) as (id2 & s2 & X2 & E2 & H2 & Er2 & K2 & _). rewrite E2. destruct f as [| f]; [cbn [length] in L; lia|]. remember (S f) as f1 eqn:Ef. assert (E3 : rx_parse f1 (Some (Some id2, char_tree c)) 2 s2 = Some ((Some id2, char_tree c), s2)). { subst f1. cbn [rx_parse]. cbv zeta. now rewrite (stop2 s2 cs _ H2). }
      rewrite E3. rewrite <- !app_assoc in H2. rewrite <- (map_length snd X). destruct (rx_finish s2 _ (map snd X) _ 0 RPattern H2) as (id4 & s4 & X4 & -> & H4 & Er4 & K4 & L4).
      assert (EX : map snd X4 = map snd X). { destruct H4 as (rest & (_ & _ & _ & Em & _) & _). rewrite K4, map_app in Em. apply app_inj_tail in Em. apply Em. }
      rewrite <- EX in H4. destruct (IH (S f1) s4 id4 _ X4 H4 K4) as (id5 & s5 & E5 & H5 & Er5). { cbn [length] in L. lia. }
      exists id5, s5. split; [exact E5|]. split; [rewrite EX in H5; exact H5|]. congruence.
  Qed.
End Sits.

Lemma item_toklen its : forall off, toklen (item_tokens off its) <= 2 * length (encode (flat_map (fun it => text_of_pieces (fst it)) its)).
Proof.
  induction its as [| [ps b] its IH]; intros off; [cbn; lia|]. cbn [item_tokens flat_map fst]. cbv zeta. rewrite encode_app, app_length, !toklen_app. pose proof (toklen_spans ps off). specialize (IH (off + length (encode (text_of_pieces ps)))). destruct b; [rewrite toklen_cons; cbn [tk_end tk_start]|]; change (toklen []) with 0; lia.
Qed.
Lemma items_text cs its : rx_items cs its -> flat_map (fun it => text_of_pieces (fst it)) its = cs.
Proof. induction 1 as [| ps b r its I R IH]; [reflexivity|]. cbn. now rewrite IH. Qed.
Lemma rx_fit cs its : rx_items cs its -> (2 * Z.of_nat (length (encode cs)) < 2 ^ 32)%Z -> (Z.of_nat (toklen (rx_tokens cs its)) < 2 ^ 32)%Z.
Proof. intros R L. unfold rx_tokens. rewrite toklen_app, toklen_cons. pose proof (item_toklen its 0) as T. rewrite (items_text cs its R) in T. change (toklen []) with 0. cbn [tk_end tk_start]. lia. Qed.

(** No quantifier in the text, none among the tokens *)
Lemma no_quantifier cs its : rx_items cs its -> Forall (fun c => ~ In c (lit "*+?")) cs -> forall off, Forall (fun t => ~ In (tk_kind t) [RQuestion; RStar; RPlus]) (item_tokens off its).
Proof.
  assert (Sp : forall ps off, Forall (fun p : piece => match fst p with Some k => ~ In k [RQuestion; RStar; RPlus] | None => True end) ps -> Forall (fun t => ~ In (tk_kind t) [RQuestion; RStar; RPlus]) (spans off ps)).
  { induction ps as [| [k s] ps IH]; intros off F; [constructor|]. inversion F as [| ? ? Hk F']; subst. cbn [spans]. apply Forall_app. split; [|now apply IH]. destruct k as [k|]; [|constructor]. constructor; [exact Hk | constructor]. }
  assert (Mm : forall ps, members ps -> Forall (fun p : piece => match fst p with Some k => ~ In k [RQuestion; RStar; RPlus] | None => True end) ps).
  { induction 1; [constructor | |]; repeat (apply Forall_cons; [cbn; intuition discriminate|]); assumption. }
  assert (Mf : forall ps, Forall figure ps -> Forall (fun p : piece => match fst p with Some k => ~ In k [RQuestion; RStar; RPlus] | None => True end) ps).
  { intros ps F. eapply Forall_impl; [|exact F]. intros p [-> | (c & _ & ->)]; cbn; intuition discriminate. }
  assert (Mo : forall o, opening o -> Forall (fun p : piece => match fst p with Some k => ~ In k [RQuestion; RStar; RPlus] | None => True end) o).
  { intros o [|]; repeat (apply Forall_cons; [cbn; intuition discriminate|]); constructor. }
  assert (Mi : forall ps b r, rx_item ps b r -> Forall (fun c => ~ In c (lit "*+?")) (text_of_pieces ps) -> Forall (fun p : piece => match fst p with Some k => ~ In k [RQuestion; RStar; RPlus] | None => True end) ps).
  { intros ps b r H F. destruct H; rewrite ?Forall_app; try (repeat split; repeat (apply Forall_cons; [cbn; intuition discriminate|]); now auto).
    - apply Forall_cons; [cbn; intuition discriminate|]. apply Forall_app. split; [now apply Mf|]. repeat (apply Forall_cons; [cbn; intuition discriminate|]). constructor.
    - apply Forall_cons; [|constructor]. cbn [fst]. destruct (marks_single _ _ H) as (c & ->). cbn [text_of_pieces flat_map snd app] in F. inversion F as [| ? ? Hc _]; subst.
      change (lit "*+?") with [42; 43; 63]%Z in Hc. unfold marks in H. repeat (destruct H as [H | H]; [apply pair_equal_spec in H; destruct H as [H1 H2]; injection H1 as <-; subst k; first [cbn; intuition discriminate | exfalso; apply Hc; cbn; tauto]|]). destruct H. }
  induction 1 as [| ps b r its I R IH]; intros F off; [constructor|]. apply Forall_app in F. destruct F as [F1 F2]. cbn [item_tokens]. cbv zeta. apply Forall_app. split; [apply Sp; now apply (Mi ps b r)|]. apply Forall_app. split; [|now apply IH]. destruct b; [|constructor]. constructor; [cbn; intuition discriminate | constructor].
Qed.

Theorem tree_total cs : Forall is_scalar cs -> (2 * Z.of_nat (length (encode cs)) < 2 ^ 32)%Z -> Forall (fun c => ~ In c (lit "*+?")) cs -> exists root errs, rx_tree (encode cs) = Some (root, errs).
Proof.
  intros F L N. destruct (rx_lex_items cs F) as (its & R & E). unfold rx_tree. rewrite E. set (toks := rx_tokens cs its). pose proof (rx_fit cs its R L) as Hf. fold toks in Hf. cbv zeta.
  destruct (sits_new rx_ign toks Hf (length (encode cs)) []) as [H Er]. rewrite ynext_id, ytrivia_nil in H. cbn [map] in H. set (s0 := ps_new rx_ign toks (length (encode cs)) []) in *.
  assert (Q : quiet (map tok_yield toks)). { unfold toks, rx_tokens. split.
    - apply Forall_map. apply Forall_app. split; [now apply (no_quantifier cs)|]. constructor; [cbn; intuition discriminate | constructor].
    - right. rewrite map_app. eexists _, _. reflexivity. }
  destruct (quiet_parse toks Hf (3 * length toks + 3) None 0 s0 _ [] H Q) as (l' & s' & ys' & pre & L' & -> & Ep & H' & _). { rewrite map_length. lia. }
  destruct pre; [|discriminate]. cbn [app] in H'. unfold checkpoint. rewrite (sits_sink toks s0 _ _ H). destruct (rx_finish toks Hf s' ys' [] L' (ps_index s0) RPattern H') as (id & s2 & X & E2 & _). rewrite E2. eexists _, _. reflexivity.
Qed.

Lemma barred_items c cs : ordinary c -> Forall ordinary cs -> rx_items (barred c cs) (([(Some RCharacter, [c])], false) :: flat_map (fun d => [([(Some RPipe, lit "|")], false); ([(Some RCharacter, [d])], false)]) cs).
Proof.
  revert c. induction cs as [| d cs IH]; intros c O F; cbn [barred flat_map].
  - change [c] with (text_of_pieces [(Some RCharacter, [c])] ++ []). apply RxItem; [now apply IChar | constructor].
  - inversion F; subst. change (c :: lit "|" ++ barred d cs) with (text_of_pieces [(Some RCharacter, [c])] ++ (text_of_pieces [(Some RPipe, lit "|")] ++ barred d cs)). apply RxItem; [now apply IChar|]. cbn [app]. apply RxItem; [apply IMark; unfold marks; cbn; tauto | now apply IH].
Qed.
Lemma barred_yields n cs : forall off, map tok_yield (item_tokens off (flat_map (fun d => [([(Some RPipe, lit "|")], false); ([(Some RCharacter, [d])], false)]) cs) ++ [Token REof n n]) = ybarred cs.
Proof.
  induction cs as [| d cs IH]; intros off.
  - cbn. unfold tok_yield. cbn. now rewrite Nat.sub_diag.
  - cbn [flat_map app item_tokens spans]. cbn [map ybarred]. rewrite IH. unfold tok_yield. cbn [tk_kind tk_end tk_start]. unfold ychar. f_equal; [change (encode (lit "|")) with [124%Z]; cbn [length]; f_equal; lia|]. f_equal. f_equal. lia.
Qed.
Theorem tree_alternatives c cs : Forall is_scalar (c :: cs) -> ordinary c -> Forall ordinary cs -> (2 * Z.of_nat (length (encode (barred c cs))) < 2 ^ 32)%Z ->
  rx_tree (encode (barred c cs)) = Some (gnode RPattern [alternatives (char_tree c) cs], []).
Proof.
  intros F O Fo L. assert (Fb : Forall is_scalar (barred c cs)). { clear L O Fo. revert c F. induction cs as [| d cs IH]; intros c F; inversion F; subst; cbn [barred]; [now constructor|]. constructor; [assumption|]. cbn [app]. apply Forall_app. split; [|now apply IH]. repeat (apply Forall_cons; [unfold is_scalar; cbn; lia|]); apply Forall_nil. }
  pose proof (barred_items c cs O Fo) as R. pose proof (rx_lex_exact _ _ Fb R) as E. pose proof (rx_fit _ _ R L) as Hf. unfold rx_tree. rewrite E. set (toks := rx_tokens (barred c cs) _) in *. cbv zeta. set (n := length (encode (barred c cs))) in *.
  destruct (sits_new rx_ign toks Hf n []) as [H Er]. rewrite ynext_id, ytrivia_nil in H. cbn [map] in H. set (s0 := ps_new rx_ign toks n []) in *.
  assert (Y : map tok_yield toks = ychar c :: ybarred cs). { unfold toks, rx_tokens. cbv zeta. fold n. cbn [item_tokens spans app]. cbn [map]. rewrite barred_yields. f_equal. unfold tok_yield, ychar. cbn [tk_kind tk_end tk_start]. f_equal. lia. }
  rewrite Y in H. replace (3 * length toks + 3) with (S (3 * length toks + 2)) by lia. destruct (char_parse toks Hf (3 * length toks + 2) 0 s0 c _ _ H) as (id & s1 & X & -> & H1 & Er1 & K1 & L1). destruct X; [|discriminate].
  assert (Lt : length toks = 2 * length cs + 2). { rewrite <- (map_length tok_yield toks), Y. cbn [length]. clear. induction cs as [| d cs IH]; [reflexivity|]. cbn [ybarred length] in *. lia. }
  destruct (barred_parse toks Hf cs (3 * length toks + 2) s1 id (char_tree c) [] H1 K1 ltac:(lia)) as (id2 & s2 & -> & H2 & Er2). unfold checkpoint. rewrite (sits_sink toks s0 _ _ H). destruct (rx_finish toks Hf s2 _ [] _ (ps_index s0) RPattern H2) as (id3 & s3 & X3 & E3 & _ & Er3 & _). cbn [length] in *. rewrite E3. cbn [snd app]. do 2 f_equal. congruence.
Qed.

(** ** Groups in each other: every star doubles the width *)
Definition ready (s : pstate) (ks : list (nat * nat)) : Prop := map tok_yield (skipn (ps_index s) (ps_toks s)) = ks.
Lemma ready_current s y ks : ready s (y :: ks) -> exists t, ps_current s = Some t /\ tok_yield t = y /\ map tok_yield (skipn (S (ps_index s)) (ps_toks s)) = ks.
Proof.
  unfold ready, ps_current. intros H. destruct (nth_error (ps_toks s) (ps_index s)) as [t|] eqn:E.
  - rewrite (skipn_nth _ _ _ E) in H. injection H as <- <-. now exists t.
  - apply nth_error_None in E. rewrite skipn_all2 in H by lia. discriminate.
Qed.
Lemma ready_peek s k w ks : ready s ((k, w) :: ks) -> peek_kind s = Some k.
Proof. intros H. destruct (ready_current _ _ _ H) as (t & C & Y & _). unfold peek_kind. rewrite C. injection Y as <- _. reflexivity. Qed.
Lemma ready_bump s k ks : ready s ((k, 1) :: ks) -> ready (bump rx_ign s) ks /\ ps_sink (bump rx_ign s) = ps_sink s ++ [(None, GLeaf k 1 None)].
Proof.
  intros H. destruct (ready_current _ _ _ H) as (t & C & Y & R). rewrite bump_eq, C. split; [exact R|]. cbn [set_index push_leaf set_sink ps_sink]. injection Y as <- Y. unfold tk_len. rewrite Y. reflexivity.
Qed.
Lemma ready_finish s ks X Y i kind it s' : ready s ks -> ps_sink s = X ++ Y -> finish_at s (i, length X) kind = Some (it, s') ->
  exists id g, it = (Some id, g) /\ ready s' ks /\ ps_sink s' = X ++ [it] /\ glen g = sum_len (map snd Y) /\ (Z.of_nat (glen g) < 2 ^ 32)%Z.
Proof.
  intros H E F. pose proof (finish_eq _ _ _ _ _ F) as (n & Ei & Es & Ex & Et). cbn [snd] in *. rewrite E, skipn_app, skipn_all, Nat.sub_diag in Ei. cbn [skipn app] in Ei. rewrite E, firstn_app, firstn_all, Nat.sub_diag in Es. cbn [firstn] in Es. rewrite app_nil_r in Es.
  exists (ps_next s), (GNode kind n (map snd Y)). split; [assumption|]. split; [unfold ready; now rewrite Ex, Et|]. split; [assumption|]. unfold finish_at in F. destruct (_ <? _); [discriminate|]. cbn [snd] in F. rewrite E, skipn_app, skipn_all, Nat.sub_diag in F. cbn [skipn app] in F. unfold new_node in F. destruct (fits_u32 (sum_len (map snd Y))) eqn:Fi; [|discriminate].
  rewrite Ei in F. injection F as Fn _. cbn [glen]. rewrite <- Fn. split; [reflexivity|]. unfold fits_u32 in Fi. apply N.ltb_lt in Fi. lia.
Qed.

Fixpoint ystar (m : nat) : list (nat * nat) := match m with O => [(RCharacter, 1)] | S m => (RLParen, 1) :: ystar m ++ [(RStar, 1); (RRParen, 1)] end.
Lemma starred_parse : forall m f s ks, ready s (ystar m ++ ks) -> rx_parse f None 0 s = None \/
  exists f' id g s', rx_parse f None 0 s = rx_parse f' (Some (Some id, g)) 0 s' /\ ready s' ks /\ ps_sink s' = ps_sink s ++ [(Some id, g)] /\ (Z.of_nat (glen g) = 4 * 2 ^ Z.of_nat m - 3)%Z /\ (Z.of_nat (glen g) < 2 ^ 32)%Z.
Proof.
  induction m as [| m IH]; intros f s ks H; (destruct f as [| f]; [now left|]); cbn [rx_parse ystar app] in *; cbv zeta; rewrite (ready_peek _ _ _ _ H); cbv iota.
  - change (existsb (Nat.eqb RCharacter) [RHat; RDollar; RCharacter; RDot]) with true. cbv iota. destruct (ready_bump _ _ _ H) as [H1 S1]. destruct (finish_at (bump rx_ign s) (checkpoint s) RPattern) as [[it s2]|] eqn:F; [|now left]. right.
    destruct (ready_finish _ _ _ _ _ _ _ _ H1 S1 F) as (id & g & -> & H2 & S2 & W & Fi). exists f, id, g, s2. split; [reflexivity|]. split; [assumption|]. split; [assumption|]. split; [rewrite W; reflexivity | assumption].
  - change (existsb (Nat.eqb RLParen) [RHat; RDollar; RCharacter; RDot]) with false. change (RLParen =? RBackslash) with false. change (RLParen =? RLParen) with true. cbv iota. destruct (ready_bump _ _ _ H) as [H1 S1]. rewrite <- app_assoc in H1.
    destruct (IH f _ _ H1) as [-> | (f1 & id1 & g1 & s2 & -> & H2 & S2 & W1 & _)]; [now left|]. rewrite S1, <- app_assoc in S2. cbn [app] in H2. destruct f1 as [| f1]; [now left|]. cbn [rx_parse]. cbv zeta. assert (I2 : rx_infix 0 s2 = RxPost) by (unfold rx_infix; rewrite (ready_peek _ _ _ _ H2); reflexivity). rewrite I2.
    set (s3 := set_sink s2 (ps_sink s2 ++ [(Some id1, g1)])). assert (H3 : ready s3 ((RStar, 1) :: (RRParen, 1) :: ks)) by exact H2. destruct (ready_bump _ _ _ H3) as [H4 S4]. change (ps_sink s3) with (ps_sink s2 ++ [(Some id1, g1)]) in S4. rewrite <- app_assoc in S4.
    destruct (finish_at (bump rx_ign s3) (checkpoint s2) RPattern) as [[it s5]|] eqn:F5; [|now left]. destruct (ready_finish _ _ _ _ _ _ _ _ H4 S4 F5) as (id5 & g5 & -> & H5 & S5 & W5 & _).
    destruct f1 as [| f1]; [now left|]. cbn [rx_parse]. cbv zeta. assert (I5 : rx_infix 0 s5 = RxStop) by (unfold rx_infix; rewrite (ready_peek _ _ _ _ H5); reflexivity). rewrite I5.
    unfold expect, eat. assert (A : at_kind s5 RRParen = true) by (unfold at_kind; rewrite (ready_peek _ _ _ _ H5); reflexivity). rewrite A. cbn [snd]. destruct (ready_bump _ _ _ H5) as [H6 S6]. rewrite S5, S2, <- !app_assoc in S6.
    destruct (finish_at (bump rx_ign s5) (checkpoint s) RPattern) as [[it s7]|] eqn:F7; [|now left]. destruct (ready_finish _ _ _ _ _ _ _ _ H6 S6 F7) as (id7 & g7 & -> & H7 & S7 & W7 & Fi). right. exists f, id7, g7, s7. split; [reflexivity|]. split; [assumption|]. split; [assumption|]. split; [|assumption].
    rewrite W7. cbn [map snd app sum_len glen]. rewrite W5. cbn [map snd app sum_len glen]. rewrite (Nat2Z.inj_succ m), Z.pow_succ_r by lia. lia.
Qed.

Fixpoint sitems (m : nat) : list (list piece * bool) :=
  match m with O => [([(Some RCharacter, lit "x")], false)] | S m => ([(Some RLParen, lit "(")], false) :: sitems m ++ [([(Some RStar, lit "*")], false); ([(Some RRParen, lit ")")], false)] end.
Lemma starred_items m : forall r its, rx_items r its -> rx_items (starred m ++ r) (sitems m ++ its).
Proof.
  induction m as [| m IH]; intros r its R; cbn [starred sitems].
  - cbn [app]. change (lit "x" ++ r) with (text_of_pieces [(Some RCharacter, lit "x")] ++ r). apply RxItem; [|assumption]. apply (IChar 120%Z). split; [discriminate|]. split; [rewrite others_spec; lia|]. apply table_none. reflexivity.
  - rewrite <- !app_assoc. change (lit "(" ++ starred m ++ lit "*)" ++ r) with (text_of_pieces [(Some RLParen, lit "(")] ++ (starred m ++ lit "*)" ++ r)). cbn [app]. apply RxItem; [apply IMark; unfold marks; cbn; tauto|]. rewrite <- app_assoc. cbn [app]. apply IH.
    change (lit "*)" ++ r) with (text_of_pieces [(Some RStar, lit "*")] ++ (text_of_pieces [(Some RRParen, lit ")")] ++ r)). apply RxItem; [apply IMark; unfold marks; cbn; tauto|]. apply RxItem; [apply IMark; unfold marks; cbn; tauto | assumption].
Qed.
Lemma starred_yields m : forall off its, exists off', map tok_yield (item_tokens off (sitems m ++ its)) = ystar m ++ map tok_yield (item_tokens off' its).
Proof.
  induction m as [| m IH]; intros off its; cbn [sitems ystar app].
  - eexists. cbn [item_tokens spans app map]. f_equal. unfold tok_yield. cbn [tk_kind tk_end tk_start]. change (encode (lit "x")) with [120%Z]. cbn [length]. f_equal. lia.
  - destruct (IH (off + 1) (([(Some RStar, lit "*")], false) :: ([(Some RRParen, lit ")")], false) :: its)) as (o' & Y). exists (o' + 1 + 1).
    assert (A : map tok_yield (item_tokens off (([(Some RLParen, lit "(")], false) :: sitems m ++ ([(Some RStar, lit "*")], false) :: ([(Some RRParen, lit ")")], false) :: its)) = (RLParen, 1) :: map tok_yield (item_tokens (off + 1) (sitems m ++ ([(Some RStar, lit "*")], false) :: ([(Some RRParen, lit ")")], false) :: its))).
    { cbn [item_tokens spans app map]. unfold tok_yield at 1. cbn [tk_kind tk_end tk_start]. change (length (encode (lit "("))) with 1. change (length (encode (text_of_pieces [(Some RLParen, lit "(")]))) with 1. do 2 f_equal. lia. }
    rewrite <- !app_assoc. cbn [app]. refine (eq_trans A _). f_equal. refine (eq_trans Y _). f_equal. cbn [item_tokens spans app map]. unfold tok_yield at 1 2. cbn [tk_kind tk_end tk_start].
    change (length (encode (lit "*"))) with 1. change (length (encode (lit ")"))) with 1. change (length (encode (text_of_pieces [(Some RStar, lit "*")]))) with 1. change (length (encode (text_of_pieces [(Some RRParen, lit ")")]))) with 1. f_equal; [f_equal; lia|]. f_equal. f_equal. lia.
Qed.
Lemma starred_scalar m : Forall is_scalar (starred m).
Proof. induction m as [| m IH]; cbn [starred]; rewrite ?Forall_app; repeat (split; [first [exact IH | repeat (apply Forall_cons; [unfold is_scalar; cbn; lia|]); apply Forall_nil]|]); repeat (apply Forall_cons; [unfold is_scalar; cbn; lia|]); apply Forall_nil. Qed.
Lemma starred_length m : length (starred m) = 3 * m + 1.
Proof. induction m as [| m IH]; [reflexivity|]. cbn [starred]. rewrite !app_length, IH. cbn. lia. Qed.

Theorem starred_fails m : 31 <= m -> exists toks, rx_lex (encode (starred m)) = Some toks /\ forall fuel n, rx_parse fuel None 0 (ps_new rx_ign toks n []) = None.
Proof.
  intros L. pose proof (starred_items m [] [] RxEnd) as R. rewrite !app_nil_r in R. pose proof (rx_lex_exact _ _ (starred_scalar m) R) as E. eexists. split; [exact E|]. intros fuel n. rewrite new_state. unfold rx_tokens. cbv zeta. destruct (starred_yields m 0 []) as (o' & Y). rewrite !app_nil_r in Y.
  match goal with |- rx_parse _ _ _ ?s = _ => assert (H : exists ks, ready s (ystar m ++ ks)) end. { unfold ready. cbn [ps_index ps_toks skipn]. rewrite map_app, Y. eexists. reflexivity. }
  destruct H as (ks & H). destruct (starred_parse m fuel _ _ H) as [N | (f' & id & g & s' & _ & _ & _ & W & Fi)]; [assumption|]. exfalso. assert (2 ^ 31 <= 2 ^ Z.of_nat m)%Z by (apply Z.pow_le_mono_r; lia). lia.
Qed.
