(** Printing and building of LLVM IR global variables. *)
From Verif Require Import Base Utf8 Utf8Facts ScanSpec CursorModel CursorSpec CursorProofs RopeModel LexModel LexSpec TreeModel TreeSpec TreeProofs VfsModel ParserModel ParserSpec ParserProofs.
From Verif Require Import JsonLangSpec LangModel LangSpec LangLexProofs LangParseProofs IniModel LlModel LlSpec LlLexProofs LlBuildSpec.
From Verif Require JsonAstBuildProofs LlProofs.

(** ** Words *)
Lemma words_run alpha w : Forall (vplain alpha) w -> forall acc r, ll_words acc (w ++ r) = ll_words (acc ++ w) r.
Proof. induction 1 as [| c w H _ IH]; intros acc r; cbn [app]; [now rewrite app_nil_r|]. cbn [ll_words]. destruct H as (_ & H & _). rewrite H, IH, <- app_assoc. reflexivity. Qed.
Lemma words_spaced alpha ws : Forall (vword alpha) ws -> ll_words [] (spaced ws) = ws.
Proof.
  induction 1 as [| w ws [N F] _ IH]; [reflexivity|]. destruct ws as [| w' ws].
  - cbn [spaced]. rewrite <- (app_nil_r w), (words_run alpha w F). cbn [app ll_words]. rewrite app_nil_r. now destruct w.
  - cbn [spaced]. rewrite (words_run alpha w F). cbn [app ll_words]. change (char_is_whitespace 32) with true. cbn [app]. destruct w; [contradiction|]. cbn [app]. f_equal. exact IH.
Qed.
Lemma join_spaced ws : ll_join ws = spaced ws.
Proof. induction ws as [| w [| w' ws] IH]; [reflexivity | reflexivity|]. cbn [ll_join spaced] in *. now rewrite IH. Qed.
Definition line (g : lglobal) : list Z := lg_ty g ++ 32%Z :: lg_value g.
Lemma line_words alpha alnum g ws : good_global alpha alnum g -> lg_value g = spaced ws -> Forall (vword alpha) ws -> ll_words [] (line g) = lg_ty g :: ws.
Proof.
  intros (_ & _ & [N F] & _) E W. unfold line. rewrite (words_run alpha _ F). cbn [app ll_words]. change (char_is_whitespace 32) with true. rewrite E. rewrite (words_spaced alpha ws W). now destruct (lg_ty g).
Qed.

Section Tables.
  Variables alpha alnum : Z -> bool.
  Hypothesis Tb : tables alpha alnum.

  Lemma tables_letters : letters alpha.
  Proof. intros c A L. now apply (Tb c L). Qed.
  Lemma name_low c : (c < 128)%Z -> vname alnum c -> vletter c \/ vdigit c \/ In c (lit "._-").
  Proof. intros L [H | H]; [apply (Tb c L) in H; tauto | tauto]. Qed.
  Lemma not_name c : (c < 45)%Z \/ c = 61%Z \/ c = 64%Z -> ~ vname alnum c.
  Proof. intros L H. apply name_low in H; [|lia]. unfold vletter, vdigit in H. cbn in H. lia. Qed.

  (** ** Pieces *)
  (** The characters of the line of a global *)
  Definition body_char (c : Z) : Prop := c = 32%Z \/ vplain alpha c.
  Lemma spaced_chars ws : Forall (vword alpha) ws -> Forall body_char (spaced ws).
  Proof.
    assert (W : forall w, vword alpha w -> Forall body_char w) by (intros w [_ F]; eapply Forall_impl; [|exact F]; intros c H; now right).
    induction 1 as [| w ws H _ IH]; [constructor|]. destruct ws as [| w' ws]; [now apply W|]. cbn [spaced]. apply Forall_app. split; [now apply W|]. constructor; [now left | exact IH].
  Qed.
  Lemma line_chars g : good_global alpha alnum g -> Forall body_char (line g).
  Proof.
    intros (_ & _ & [_ F] & ws & E & W). unfold line. rewrite E. apply Forall_app. split; [eapply Forall_impl; [|exact F]; intros c H; now right|]. constructor; [now left | now apply spaced_chars].
  Qed.
  Lemma body_scalar c : body_char c -> is_scalar c.
  Proof. intros [-> | H]; [unfold is_scalar; lia | apply H]. Qed.
  Lemma body_narrow c : body_char c -> narrow alpha c.
  Proof. intros [-> | (_ & _ & _ & _ & H)]; [intros _; lia|]. intros [A | [-> | ->]]; [now apply H | lia | lia]. Qed.
  Lemma body_not c : body_char c -> c <> 34%Z /\ c <> 59%Z /\ c <> 10%Z /\ c <> 13%Z.
  Proof. intros [-> | (_ & W & H1 & H2 & _)]; [lia|]. repeat split; try assumption; intros ->; discriminate. Qed.

  Lemma stops_more (P : Z -> Prop) s r q : full_run P s r -> (forall c, hd_error q = Some c -> ~ P c) -> full_run P s (r ++ q).
  Proof. intros [F S'] H. split; [exact F|]. intros c E. destruct r as [| d r]; [now apply H | now apply S']. Qed.
  Lemma piece_more k s r q : ll_piece alpha alnum k s r -> ~ In 34%Z s -> (forall c, hd_error q = Some c -> c = 10%Z) -> ll_piece alpha alnum k s (r ++ q).
  Proof.
    intros P N H. destruct P as [c r H0 | c r H0 | s r H0 | c k s r H0 R | c k r H0 | c s r H0 R | b r H0 | b H0 | b H0 | c s r H0 L R | c r N1 N2 N3 N4 N5].
    - now apply PBlank.
    - now apply PLine.
    - apply PComment, stops_more; [exact H0|]. intros c E. rewrite (H c E). lia.
    - apply PVariable; [exact H0|]. apply stops_more; [exact R|]. intros d E. rewrite (H d E). apply not_name. lia.
    - now apply PMark.
    - apply PNumber; [exact H0|]. apply stops_more; [exact R|]. intros d E. rewrite (H d E). unfold vdigit. lia.
    - exfalso. apply N. now left.
    - exfalso. apply N. now left.
    - exfalso. apply N. now left.
    - apply PWord; [exact H0 | exact L|]. apply stops_more; [exact R|]. intros d E. rewrite (H d E). apply not_name. lia.
    - now apply PError.
  Qed.
  Lemma cut_more b bp : cut (ll_piece alpha alnum) b bp -> ~ In 34%Z b -> forall q qp, (forall c, hd_error q = Some c -> c = 10%Z) -> cut (ll_piece alpha alnum) q qp -> cut (ll_piece alpha alnum) (b ++ q) (bp ++ qp).
  Proof.
    induction 1 as [| k s r ps N P C IH]; intros Q q qp H Cq; [exact Cq|]. rewrite <- app_assoc. cbn [app]. constructor; [exact N | apply piece_more; [exact P | intros I; apply Q, in_or_app; now left | exact H]|].
    apply IH; [intros I; apply Q, in_or_app; now right | exact H | exact Cq].
  Qed.
  (** The kinds of the pieces of a line *)
  Lemma body_kinds b bp : cut (ll_piece alpha alnum) b bp -> Forall body_char b -> Forall (fun p : piece => exists k, fst p = Some k /\ k <> LvNewline /\ k <> LvComment) bp.
  Proof.
    induction 1 as [| k s r ps N P C IH]; intros F; [constructor|]. apply Forall_app in F. destruct F as [Fs Fr]. constructor; [|now apply IH]. cbn [fst].
    destruct P as [c r H0 | c r H0 | s r H0 | c k s r H0 R | c k r H0 | c s r H0 R | b r H0 | b H0 | b H0 | c s r H0 L R | c r N1 N2 N3 N4 N5]; try (eexists; split; [reflexivity|]; split; discriminate).
    - exfalso. apply Forall_inv, body_not in Fs. cbn [In] in H0. intuition congruence.
    - exfalso. apply Forall_inv, body_not in Fs. lia.
    - unfold sigils in H0. cbn [In] in H0. repeat (destruct H0 as [H0 | H0]; [apply pair_equal_spec in H0; destruct H0 as [_ <-]; eexists; split; [reflexivity|]; split; discriminate|]). destruct H0.
    - unfold marks in H0. cbn [In] in H0. repeat (destruct H0 as [H0 | H0]; [apply pair_equal_spec in H0; destruct H0 as [_ <-]; eexists; split; [reflexivity|]; split; discriminate|]). destruct H0.
  Qed.
  Lemma kind_blank k s r : ll_piece alpha alnum k s r -> k <> None /\ (k = Some LvWhitespace -> exists c, s = [c] /\ In c [32; 9]%Z).
  Proof.
    intros P. destruct P as [c r H0 | c r H0 | s r H0 | c k s r H0 R | c k r H0 | c s r H0 R | b r H0 | b H0 | b H0 | c s r H0 L R | c r N1 N2 N3 N4 N5]; (split; [discriminate|]); try discriminate.
    - intros _. now exists c.
    - intros E. exfalso. unfold sigils in H0. cbn [In] in H0. repeat (destruct H0 as [H0 | H0]; [apply pair_equal_spec in H0; destruct H0 as [_ <-]; discriminate|]). destruct H0.
    - intros E. exfalso. unfold marks in H0. cbn [In] in H0. repeat (destruct H0 as [H0 | H0]; [apply pair_equal_spec in H0; destruct H0 as [_ <-]; discriminate|]). destruct H0.
  Qed.
  Lemma body_head b bp c r : cut (ll_piece alpha alnum) b bp -> b = c :: r -> vplain alpha c -> exists k s bp', bp = (Some k, s) :: bp' /\ k <> LvWhitespace.
  Proof.
    intros C E H. apply cut_cases in C. destruct C as [[-> _] | (k & s & t & ps & Es & -> & N & P & _)]; [discriminate|]. rewrite E in Es. destruct (kind_blank _ _ _ P) as [K W]. destruct k as [k|]; [|contradiction].
    exists k, s, ps. split; [reflexivity|]. intros ->. destruct (W eq_refl) as (d & -> & I). injection Es as -> _. destruct H as (_ & H & _). destruct I as [<- | [<- | []]]; discriminate.
  Qed.

  Definition storage (g : lglobal) : list Z := if lg_constant g then lit "constant" else lit "global".
  (** The pieces before the line *)
  Definition front (g : lglobal) : list piece :=
    [(Some LvGlobalVar, 64%Z :: lg_name g); (Some LvWhitespace, [32%Z]); (Some LvEqual, [61%Z]); (Some LvWhitespace, [32%Z]); (Some LvKeyword, storage g); (Some LvWhitespace, [32%Z])].
  Definition gap (first : bool) : list piece := if first then [] else [(Some LvNewline, [10%Z])].
  Fixpoint rows (first : bool) (l : list (lglobal * list piece)) : list piece :=
    match l with [] => [] | (g, bp) :: r => gap first ++ front g ++ bp ++ rows false r end.
  Definition row_ok (x : lglobal * list piece) : Prop := good_global alpha alnum (fst x) /\ cut (ll_piece alpha alnum) (line (fst x)) (snd x).

  Lemma storage_name g : Forall (vname alnum) (storage g).
  Proof. unfold storage. assert (V : forall c, (97 <= c <= 122)%Z -> vname alnum c) by (intros c H; left; apply Tb; [lia|]; left; right; exact H). destruct (lg_constant g); apply Forall_forall; intros c I; apply V; vm_compute in I; lia. Qed.
  Lemma storage_start g : exists c s, storage g = c :: s /\ vstart alpha c /\ (c < 128)%Z.
  Proof.
    unfold storage. destruct (lg_constant g); [exists 99%Z, (lit "onstant") | exists 103%Z, (lit "lobal")]; (split; [reflexivity|]; split; [left; apply Tb; [lia|]; right; lia | lia]).
  Qed.

  Lemma front_cut g r ps : good_global alpha alnum g -> cut (ll_piece alpha alnum) r ps -> cut (ll_piece alpha alnum) (text_of_pieces (front g) ++ r) (front g ++ ps).
  Proof.
    intros (N & F & _) C. unfold front, text_of_pieces. cbn [flat_map snd app]. repeat (first [rewrite <- app_assoc | progress (cbn [app])]).
    assert (Bl : forall r ps, cut (ll_piece alpha alnum) r ps -> cut (ll_piece alpha alnum) (32%Z :: r) ((Some LvWhitespace, [32%Z]) :: ps)).
    { intros x xs Cx. apply (CutPiece _ (Some LvWhitespace) [32%Z] x xs); [discriminate | apply PBlank; now left | exact Cx]. }
    assert (St : forall x, stops (vname alnum) (32%Z :: x)) by (intros x c [= <-]; apply not_name; lia).
    change (64%Z :: lg_name g ++ ?x) with ((64%Z :: lg_name g) ++ x). apply CutPiece; [discriminate | |].
    { apply PVariable; [unfold sigils; cbn; tauto|]. split; [eapply Forall_impl; [|exact F]; now intros c [_ H] | apply St]. }
    apply Bl. apply (CutPiece _ (Some LvEqual) [61%Z]); [discriminate | apply PMark; unfold marks; cbn; tauto|]. apply Bl.
    destruct (storage_start g) as (c & s & E & V & L). pose proof (storage_name g) as Fn. rewrite E in *. apply CutPiece; [discriminate | |now apply Bl].
    apply PWord; [exact V | exact L|]. split; [now apply Forall_inv_tail in Fn | apply St].
  Qed.
  Lemma rows_cut l : Forall row_ok l -> forall first, cut (ll_piece alpha alnum) (text_of_pieces (rows first l)) (rows first l) /\ (first = false -> forall c, hd_error (text_of_pieces (rows first l)) = Some c -> c = 10%Z).
  Proof.
    induction 1 as [| [g bp] l [G C] _ IH]; intros first; [split; [constructor | discriminate]|]. cbn [rows fst snd] in *. destruct (IH false) as [C1 H1]. specialize (H1 eq_refl).
    assert (C2 : cut (ll_piece alpha alnum) (text_of_pieces (front g ++ bp ++ rows false l)) (front g ++ bp ++ rows false l)).
    { unfold text_of_pieces. rewrite !flat_map_app. apply front_cut; [exact G|]. change (flat_map snd bp) with (text_of_pieces bp). rewrite (cut_text _ _ _ C). apply cut_more; [exact C | | exact H1 | exact C1].
      intros I. pose proof (line_chars g G) as F. rewrite Forall_forall in F. apply F, body_not in I. lia. }
    destruct first; [split; [exact C2 | discriminate]|]. split; [|intros _ c [= <-]; reflexivity]. apply (CutPiece _ (Some LvNewline) [10%Z]); [discriminate | apply PLine; now left | exact C2].
  Qed.
  Lemma rows_text l : Forall row_ok l -> text_of_pieces (rows true l) = ll_print (map (fun x => LItemGlobal (fst x)) l).
  Proof.
    assert (R : forall l, Forall row_ok l -> text_of_pieces (rows false l) = match l with [] => [] | _ => 10%Z :: ll_print (map (fun x => LItemGlobal (fst x)) l) end /\ text_of_pieces (rows true l) = ll_print (map (fun x => LItemGlobal (fst x)) l)); [|intros F; now apply R].
    induction 1 as [| [g bp] r [G C] _ [IH _]]; [now split|]. cbn [fst snd] in *.
    assert (E : text_of_pieces (front g ++ bp ++ rows false r) = ll_print (map (fun x => LItemGlobal (fst x)) ((g, bp) :: r))).
    { unfold text_of_pieces. rewrite !flat_map_app. change (flat_map snd bp) with (text_of_pieces bp). change (flat_map snd (rows false r)) with (text_of_pieces (rows false r)). rewrite (cut_text _ _ _ C), IH. clear.
      assert (L : flat_map snd (front g) ++ line g = ll_print_global g).
      { unfold front, line, ll_print_global, storage. cbn [flat_map snd]. change (lit "@") with [64%Z]. change (lit " = ") with [32; 61; 32]%Z. change (lit "constant ") with (lit "constant" ++ [32%Z]). change (lit "global ") with (lit "global" ++ [32%Z]). change (lit " ") with [32%Z].
        destruct (lg_constant g); rewrite <- !app_assoc; cbn [app]; reflexivity. }
      assert (L2 : forall x, flat_map snd (front g) ++ line g ++ x = ll_print_global g ++ x) by (intros x; now rewrite <- L, app_assoc). etransitivity; [apply L2|].
      destruct r as [| y r]; [cbn [map ll_print fst ll_print_item]; now rewrite app_nil_r | reflexivity]. }
    split; [|exact E]. cbn [rows gap]. change (text_of_pieces ([(Some LvNewline, [10%Z])] ++ front g ++ bp ++ rows false r)) with (10%Z :: text_of_pieces (front g ++ bp ++ rows false r)). now rewrite E.
  Qed.
End Tables.

(** ** Parsing of one global *)
Section Parse.
  Variable (text : str) (toks : list token).
  Hypothesis Hfit : (Z.of_nat (toklen toks) < 2 ^ 32)%Z.
  Notation sees := (sees toks).

  Lemma while_stop go body n s : ps_not_at_end s && go s = false -> ll_while go body n s = s.
  Proof. intros E. destruct n; [reflexivity|]. cbn [ll_while]. now rewrite E. Qed.
  Lemma loop_stop go body s : ps_not_at_end s && go s = false -> ll_loop go body s = s.
  Proof. apply while_stop. Qed.
  Definition gapless (k : nat) : Prop := k <> LvWhitespace /\ k <> LvNewline /\ k <> LvComment.
  Lemma gap_none s t r trees : sees s (t :: r) trees -> gapless (tk_kind t) -> ll_skip s = s.
  Proof.
    intros V (A & B & C). apply loop_stop. unfold at_gap. rewrite !(sees_at _ _ _ _ _ V). apply Nat.eqb_neq in A, B, C. rewrite A, B, C. apply andb_false_r.
  Qed.
  Lemma gap_end s trees : sees s [] trees -> ll_skip s = s.
  Proof. intros V. apply loop_stop. now rewrite (sees_end _ _ _ _ V). Qed.
  Lemma not_ign k : k <> LvWhitespace -> k <> LvComment -> ll_ignored k = false.
  Proof. intros A B. unfold ll_ignored. apply Nat.eqb_neq in A, B. now rewrite A, B. Qed.

  (** A bump before a token that is not skipped, or before one blank *)
  Lemma bump_plain s t u r trees : sees s (t :: u :: r) trees -> ll_ignored (tk_kind u) = false -> sees (ll_bump s) (u :: r) (trees ++ [tokleaf t]).
  Proof. intros V K. pose proof (sees_bump ll_ignored toks Hfit s t (u :: r) trees V) as V1. cbn [no_trivia trivia] in V1. now rewrite K in V1. Qed.
  Lemma bump_blank s t w u r trees : sees s (t :: w :: u :: r) trees -> tk_kind w = LvWhitespace -> ll_ignored (tk_kind u) = false -> sees (ll_bump s) (u :: r) (trees ++ [tokleaf t; tokleaf w]).
  Proof. intros V W K. pose proof (sees_bump ll_ignored toks Hfit s t (w :: u :: r) trees V) as V1. cbn [no_trivia trivia] in V1. rewrite W in V1. cbn [ll_ignored LvWhitespace Nat.eqb orb] in V1. now rewrite K in V1. Qed.
  Lemma bump_err s : ps_errs (ll_bump s) = ps_errs s.
  Proof. apply bump_errs. Qed.

  (** The tokens of the line, up to the end or a line end *)
  Definition in_line (t : token) : Prop := tk_kind t <> LvNewline /\ tk_kind t <> LvComment.
  Definition go_line (s : pstate) : bool := negb (at_kind s LvNewline) && negb (at_kind s LvComment).
  Lemma no_trivia_app bt tl : (forall t, hd_error tl = Some t -> tk_kind t = LvNewline) -> exists w bt', bt = w ++ bt' /\ no_trivia ll_ignored (bt ++ tl) = bt' ++ tl /\ trivia ll_ignored (bt ++ tl) = w /\
    match bt' with t :: _ => ll_ignored (tk_kind t) = false | [] => True end.
  Proof.
    intros H. induction bt as [| t bt (w & bt' & E & N & T & K)].
    - exists [], []. cbn [app]. destruct tl as [| t tl]; [now repeat split|]. cbn [no_trivia trivia]. rewrite (H t eq_refl). now repeat split.
    - cbn [app no_trivia trivia]. destruct (ll_ignored (tk_kind t)) eqn:I.
      + exists (t :: w), bt'. rewrite E at 1. split; [reflexivity|]. split; [exact N|]. split; [now rewrite T | exact K].
      + exists [], (t :: bt). now repeat split.
  Qed.
  Lemma line_run : forall n bt tl s trees, sees s (bt ++ tl) trees -> Forall in_line bt -> match bt with t :: _ => ll_ignored (tk_kind t) = false | [] => True end ->
    (forall t, hd_error tl = Some t -> tk_kind t = LvNewline) -> length bt <= n -> sees (ll_while go_line ll_bump n s) tl (trees ++ map tokleaf bt) /\ ps_errs (ll_while go_line ll_bump n s) = ps_errs s.
  Proof.
    induction n as [| n IH]; intros bt tl s trees V F K H L.
    - destruct bt; [|cbn in L; lia]. cbn [ll_while map]. rewrite app_nil_r. now split.
    - destruct bt as [| t bt].
      + cbn [app map] in *. rewrite app_nil_r. rewrite while_stop; [now split|]. rewrite (sees_end _ _ _ _ V). destruct tl as [| t tl]; [reflexivity|]. unfold go_line. rewrite (sees_at _ _ _ _ _ V), (H t eq_refl). reflexivity.
      + cbn [app] in V. cbn [ll_while]. assert (G : ps_not_at_end s && go_line s = true).
        { rewrite (sees_end _ _ _ _ V). unfold go_line. rewrite !(sees_at _ _ _ _ _ V). apply Forall_inv in F. destruct F as [F1 F2]. apply Nat.eqb_neq in F1, F2. now rewrite F1, F2. }
        rewrite G. pose proof (sees_bump ll_ignored toks Hfit s t (bt ++ tl) trees V) as V1. destruct (no_trivia_app bt tl H) as (w & bt' & E & N & T & K'). rewrite N, T in V1. change (bump ll_ignored s) with (ll_bump s) in V1.
        apply Forall_inv_tail in F. rewrite E in F. apply Forall_app in F. destruct F as [_ F']. cbn [length] in L. rewrite E, app_length in L. destruct (IH bt' tl (ll_bump s) _ V1 F' K' H ltac:(lia)) as [V2 E2]. split; [|rewrite E2; apply bump_err].
        rewrite <- app_assoc in V2. cbn [app] in V2. rewrite E. cbn [map]. rewrite map_app. exact V2.
  Qed.

  Definition tk_word (t : token) : str := flat_text_in text (tk_start t) (tk_end t).
  Definition item_tree (nl hs bt : list token) : green := gnode LvItem (map tokleaf nl ++ [gnode LvGlobal (map tokleaf hs ++ [gnode LvIdentifier (map tokleaf bt)])]).
  Lemma item_run s nl tv w1 te w2 tk w3 bt tl trees :
    sees s (nl ++ tv :: w1 :: te :: w2 :: tk :: w3 :: bt ++ tl) trees -> (nl = [] \/ exists n, nl = [n] /\ tk_kind n = LvNewline) ->
    tk_kind tv = LvGlobalVar -> tk_kind w1 = LvWhitespace -> tk_kind te = LvEqual -> tk_kind w2 = LvWhitespace -> tk_kind tk = LvKeyword -> tk_kind w3 = LvWhitespace -> (tk_word tk = lit "global" \/ tk_word tk = lit "constant") ->
    Forall in_line bt -> (exists t r, bt = t :: r /\ tk_kind t <> LvWhitespace) -> (forall t, hd_error tl = Some t -> tk_kind t = LvNewline) ->
    exists s', ll_item text s = Some (true, s') /\ sees s' tl (trees ++ [item_tree nl [tv; w1; te; w2; tk; w3] bt]) /\ ps_errs s' = ps_errs s.
  Proof.
    intros V Nl Kv K1 Ke K2 Kk K3 Tx F (b0 & br & Eb & Kb) H.
    assert (V1 : sees (ll_skip s) (tv :: w1 :: te :: w2 :: tk :: w3 :: bt ++ tl) (trees ++ map tokleaf nl) /\ ps_errs (ll_skip s) = ps_errs s).
    { destruct Nl as [-> | (n & -> & Kn)]; cbn [app map] in *.
      - rewrite app_nil_r, (gap_none s _ _ _ V) by (rewrite Kv; repeat split; discriminate). now split.
      - unfold ll_skip, ll_loop. rewrite (sees_length _ _ _ _ V). cbn [length ll_while]. assert (G : ps_not_at_end s && at_gap s = true) by (rewrite (sees_end _ _ _ _ V); unfold at_gap; rewrite !(sees_at _ _ _ _ _ V), Kn; reflexivity). rewrite G.
        pose proof (bump_plain s n tv _ trees V ltac:(now rewrite Kv)) as Vb. destruct (ps_not_at_end (ll_bump s) && at_gap (ll_bump s)) eqn:Gb.
        { exfalso. rewrite (sees_end _ _ _ _ Vb) in Gb. unfold at_gap in Gb. rewrite !(sees_at _ _ _ _ _ Vb), Kv in Gb. discriminate. }
        split; [exact Vb | apply bump_err]. }
    destruct V1 as [V1 E1]. set (s1 := ll_skip s) in *. unfold ll_item. cbv zeta. fold s1. rewrite (sees_end _ _ _ _ V1). cbn [negb]. unfold andthen at 1. rewrite (sees_at _ _ _ _ _ V1), Kv, Nat.eqb_refl.
    assert (G : exists s2, ll_global text s1 = Some (true, s2) /\ sees s2 tl ((trees ++ map tokleaf nl) ++ [gnode LvGlobal (map tokleaf [tv; w1; te; w2; tk; w3] ++ [gnode LvIdentifier (map tokleaf bt)])]) /\ ps_errs s2 = ps_errs s1).
    { set (tr := trees ++ map tokleaf nl) in *. unfold ll_global. cbv zeta. unfold andthen at 1. unfold ll_expect at 1, expect, eat. rewrite (sees_at _ _ _ _ _ V1), Kv, Nat.eqb_refl. change (bump ll_ignored s1) with (ll_bump s1).
      pose proof (bump_blank s1 tv w1 te _ tr V1 K1 ltac:(now rewrite Ke)) as V2. rewrite (gap_none _ _ _ _ V2) by (rewrite Ke; repeat split; discriminate).
      unfold andthen at 1. unfold ll_expect at 1, expect, eat. rewrite (sees_at _ _ _ _ _ V2), Ke, Nat.eqb_refl. change (bump ll_ignored (ll_bump s1)) with (ll_bump (ll_bump s1)).
      pose proof (bump_blank _ te w2 tk _ _ V2 K2 ltac:(now rewrite Kk)) as V3. rewrite (gap_none _ _ _ _ V3) by (rewrite Kk; repeat split; discriminate). set (s3 := ll_bump (ll_bump s1)) in *.
      assert (M : ll_modifiers text s3 = ll_bump s3).
      { unfold ll_modifiers. cbv zeta. rewrite loop_stop.
        - now rewrite (sees_end _ _ _ _ V3).
        - rewrite (sees_end _ _ _ _ V3). unfold at_storage, at_word, ll_word. rewrite !(sees_at _ _ _ _ _ V3), Kk, Nat.eqb_refl, (sees_current _ _ _ _ V3). cbn [hd_error andb]. unfold tk_word in Tx. destruct Tx as [-> | ->]; reflexivity. }
      rewrite M. assert (Ib : ll_ignored (tk_kind b0) = false) by (apply not_ign; [exact Kb | rewrite Eb in F; apply Forall_inv in F; apply F]). assert (Gb : gapless (tk_kind b0)) by (rewrite Eb in F; apply Forall_inv in F; destruct F; now repeat split).
      pose proof V3 as V3'. rewrite Eb in V3'. cbn [app] in V3'. pose proof (bump_blank _ tk w3 b0 _ _ V3' K3 Ib) as V4. rewrite (gap_none _ _ _ _ V4 Gb). set (s4 := ll_bump s3) in *.
      change (b0 :: br ++ tl) with ((b0 :: br) ++ tl) in V4. rewrite <- Eb in V4. change (fun s : pstate => negb (at_kind s LvNewline) && negb (at_kind s LvComment)) with go_line.
      destruct (line_run (length (ps_toks s4) - ps_index s4) bt tl s4 _ V4 F) as [V5 E5]; [now rewrite Eb | exact H | rewrite (sees_length _ _ _ _ V4), app_length; lia|]. fold (ll_loop go_line ll_bump s4) in V5, E5. set (s5 := ll_loop go_line ll_bump s4) in *.
      destruct (sees_finish ll_ignored toks Hfit s5 tl _ (map tokleaf bt) (fst (checkpoint s4)) LvIdentifier V5) as (m6 & s6 & E6 & V6 & Er6).
      assert (C4 : checkpoint s4 = (fst (checkpoint s4), length ((((tr ++ [tokleaf tv; tokleaf w1]) ++ [tokleaf te; tokleaf w2]) ++ [tokleaf tk; tokleaf w3])))) by (unfold checkpoint; cbn [fst]; f_equal; destruct V4 as (_ & _ & _ & Sk & _); now rewrite <- Sk, map_length).
      unfold andthen, ll_finish. rewrite C4, E6. cbn beta iota. rewrite <- !app_assoc in V6. cbn [app] in V6.
      destruct (sees_finish ll_ignored toks Hfit s6 tl tr _ (fst (checkpoint s1)) LvGlobal V6) as (m7 & s7 & E7 & V7 & Er7).
      assert (C1 : checkpoint s1 = (fst (checkpoint s1), length tr)) by (unfold checkpoint; cbn [fst]; f_equal; destruct V1 as (_ & _ & _ & Sk & _); now rewrite <- Sk, map_length).
      rewrite C1, E7. exists s7. split; [reflexivity|]. split; [exact V7|]. rewrite Er7, Er6, E5. unfold s4, s3. now rewrite !bump_err. }
    destruct G as (s2 & -> & V2 & E2). rewrite <- app_assoc in V2. destruct (sees_finish ll_ignored toks Hfit s2 tl trees _ (fst (checkpoint s)) LvItem V2) as (m & s' & E & V' & Er).
    assert (C : checkpoint s = (fst (checkpoint s), length trees)) by (unfold checkpoint; cbn [fst]; f_equal; destruct V as (_ & _ & _ & Sk & _); now rewrite <- Sk, map_length).
    unfold ll_finish. rewrite C, E. exists s'. split; [reflexivity|]. split; [exact V' | congruence].
  Qed.
End Parse.

(** ** Building of one global *)
Definition pleaf (p : piece) : green := leaf (match fst p with Some k => k | None => 0 end) (snd p).
Lemma spans_app p q : forall off, spans off (p ++ q) = spans off p ++ spans (off + length (encode (text_of_pieces p))) q.
Proof.
  induction p as [| [k s] p IH]; intros off; [cbn; now rewrite Nat.add_0_r|]. cbn [app spans]. rewrite IH. change (text_of_pieces ((k, s) :: p)) with (s ++ text_of_pieces p). rewrite encode_app, app_length, Nat.add_assoc. now rewrite app_assoc.
Qed.
Lemma pieces_app p q : text_of_pieces (p ++ q) = text_of_pieces p ++ text_of_pieces q.
Proof. apply flat_map_app. Qed.
Lemma spans_leaves ps : Forall (fun p : piece => fst p <> None) ps -> forall off, map tokleaf (spans off ps) = map pleaf ps.
Proof.
  induction 1 as [| [k s] ps N _ IH]; intros off; [reflexivity|]. destruct k as [k|]; [|now destruct N]. cbn [spans app map]. rewrite tokleaf_span, IH. reflexivity.
Qed.
Lemma leaves_width ps : list_sum (map width (map pleaf ps)) = length (encode (text_of_pieces ps)).
Proof.
  induction ps as [| [k s] ps IH]; [reflexivity|]. change (text_of_pieces ((k, s) :: ps)) with (s ++ text_of_pieces ps). rewrite encode_app, app_length, <- IH. reflexivity.
Qed.
Lemma gnode_wide k ch : width (gnode k ch) = list_sum (map width ch).
Proof. unfold gnode. cbn [width]. induction ch as [| c ch IH]; [reflexivity|]. cbn [map list_sum fold_right]. f_equal; exact IH. Qed.
Lemma text_at cs p s q o g : Forall is_scalar cs -> cs = p ++ s ++ q -> o = length (encode p) -> glen g = length (encode s) -> ll_text (encode cs) o g = s.
Proof.
  intros F -> -> G. unfold ll_text. rewrite G. rewrite (proj1 (JsonAstBuildProofs.text_here p s q F)). apply chars_encode. apply Forall_app in F. destruct F as [_ F]. apply Forall_app in F. apply F.
Qed.
Lemma placed_app a b : forall o, ll_placed o (a ++ b) = ll_placed o a ++ ll_placed (o + list_sum (map glen a)) b.
Proof. induction a as [| g a IH]; intros o; cbn [app ll_placed map list_sum fold_right]; [now rewrite Nat.add_0_r|]. rewrite IH. cbn [app]. do 3 f_equal. unfold list_sum. cbn [fold_right]. lia. Qed.

Section Build.
  Variable alpha alnum : Z -> bool.
  Hypothesis Tb : tables alpha alnum.

  Definition item_green (first : bool) (x : lglobal * list piece) : green :=
    gnode LvItem (map pleaf (gap first) ++ [gnode LvGlobal (map pleaf (front (fst x)) ++ [gnode LvIdentifier (map pleaf (snd x))])]).
  Definition row_text (first : bool) (x : lglobal * list piece) : list Z := text_of_pieces (gap first ++ front (fst x) ++ snd x).
  Lemma item_wide first x : width (item_green first x) = length (encode (row_text first x)) /\ glen (item_green first x) = length (encode (row_text first x)).
  Proof.
    assert (E : list_sum (map width (map pleaf (gap first) ++ [gnode LvGlobal (map pleaf (front (fst x)) ++ [gnode LvIdentifier (map pleaf (snd x))])])) = length (encode (row_text first x))).
    { unfold row_text. rewrite !pieces_app, !encode_app, !app_length. rewrite !map_app, !list_sum_app, leaves_width. cbn [map list_sum fold_right]. rewrite gnode_wide, map_app, list_sum_app, leaves_width. cbn [map list_sum fold_right]. rewrite gnode_wide, leaves_width. lia. }
    unfold item_green. rewrite gnode_wide. split; exact E.
  Qed.

  Lemma build_item first g bp pre post : good_global alpha alnum g -> text_of_pieces bp = line g -> Forall is_scalar (pre ++ row_text first (g, bp) ++ post) ->
    ll_build_item (encode (pre ++ row_text first (g, bp) ++ post)) (length (encode pre), item_green first (g, bp)) = [LItemGlobal g].
  Proof.
    intros G Eb F. set (cs := pre ++ row_text first (g, bp) ++ post) in *. unfold ll_build_item, item_green. cbn [snd fst]. unfold gnode at 1. cbn iota. rewrite Nat.eqb_refl. rewrite placed_app, flat_map_app.
    assert (Z0 : flat_map (ll_build_child (encode cs)) (ll_placed (length (encode pre)) (map pleaf (gap first))) = []) by now destruct first.
    rewrite Z0. cbn [app ll_placed flat_map]. set (o := length (encode pre) + list_sum (map glen (map pleaf (gap first)))).
    assert (Eo : o = length (encode (pre ++ text_of_pieces (gap first)))) by (unfold o; rewrite encode_app, app_length; destruct first; reflexivity).
    unfold ll_build_child. cbn [snd fst]. unfold gnode at 1. cbn iota. rewrite Nat.eqb_refl, app_nil_r. do 2 f_equal. unfold ll_build_global. cbn [ll_children gnode].
    set (p0 := pre ++ text_of_pieces (gap first)) in *. assert (Ec : cs = p0 ++ (64%Z :: lg_name g) ++ [32%Z] ++ [61%Z] ++ [32%Z] ++ storage g ++ [32%Z] ++ line g ++ post).
    { unfold cs, p0, row_text. rewrite !pieces_app. cbn [fst snd]. rewrite Eb. unfold front, text_of_pieces at 2. cbn [flat_map snd]. rewrite app_nil_r. repeat (first [rewrite <- app_assoc | progress (cbn [app])]). reflexivity. }
    destruct G as (Nn & Fn & G). pose proof G as G'. destruct G' as (Wt & ws & Ew & Fw).
    assert (T1 : ll_text (encode cs) o (leaf LvGlobalVar (64%Z :: lg_name g)) = 64%Z :: lg_name g) by (eapply (text_at cs p0 (64%Z :: lg_name g)); [exact F | exact Ec | exact Eo | reflexivity]).
    set (o4 := o + glen (leaf LvGlobalVar (64%Z :: lg_name g)) + glen (leaf LvWhitespace [32%Z]) + glen (leaf LvEqual [61%Z]) + glen (leaf LvWhitespace [32%Z])).
    assert (T2 : ll_text (encode cs) o4 (leaf LvKeyword (storage g)) = storage g).
    { eapply (text_at cs (p0 ++ (64%Z :: lg_name g) ++ [32%Z] ++ [61%Z] ++ [32%Z]) (storage g)); [exact F | rewrite Ec, <- !app_assoc; reflexivity | | reflexivity]. unfold o4. rewrite Eo, !encode_app, !app_length. cbn [glen leaf]. lia. }
    set (o6 := o4 + glen (leaf LvKeyword (storage g)) + glen (leaf LvWhitespace [32%Z])).
    assert (T3 : ll_text (encode cs) o6 (gnode LvIdentifier (map pleaf bp)) = line g).
    { eapply (text_at cs (p0 ++ (64%Z :: lg_name g) ++ [32%Z] ++ [61%Z] ++ [32%Z] ++ storage g ++ [32%Z]) (line g)); [exact F | rewrite Ec, <- !app_assoc; reflexivity | |].
      - unfold o6, o4. rewrite Eo, !encode_app, !app_length. cbn [glen leaf]. lia.
      - unfold gnode. cbn [glen]. now rewrite leaves_width, Eb. }
    assert (St : ll_strip (Z.eqb 64) (64%Z :: lg_name g) = lg_name g).
    { cbn [ll_strip]. change (64 =? 64)%Z with true. cbn iota. destruct (lg_name g) as [| c r]; [reflexivity|]. cbn [ll_strip]. apply Forall_inv in Fn. destruct Fn as [_ Fn]. destruct (64 =? c)%Z eqn:E; [|reflexivity]. apply Z.eqb_eq in E. subst c. apply (not_name alpha alnum Tb) in Fn; [contradiction | lia]. }
    assert (P1 : ll_global_part (encode cs) (LGlobal [] [] [] false) (o, leaf LvGlobalVar (64%Z :: lg_name g)) = LGlobal (lg_name g) [] [] false).
    { unfold ll_global_part. unfold leaf at 1. cbn iota. rewrite Nat.eqb_refl. change (GLeaf LvGlobalVar (length (encode (64%Z :: lg_name g))) None) with (leaf LvGlobalVar (64%Z :: lg_name g)). rewrite T1, St. reflexivity. }
    assert (P5 : ll_global_part (encode cs) (LGlobal (lg_name g) [] [] false) (o4, leaf LvKeyword (storage g)) = LGlobal (lg_name g) [] [] (lg_constant g)).
    { unfold ll_global_part. unfold leaf at 1. cbn iota. change (LvKeyword =? LvGlobalVar) with false. cbn iota. change (GLeaf LvKeyword (length (encode (storage g))) None) with (leaf LvKeyword (storage g)). rewrite T2, Nat.eqb_refl. unfold storage. destruct (lg_constant g); reflexivity. }
    assert (P7 : ll_global_part (encode cs) (LGlobal (lg_name g) [] [] (lg_constant g)) (o6, gnode LvIdentifier (map pleaf bp)) = g).
    { unfold ll_global_part. unfold gnode at 1. cbn iota. rewrite Nat.eqb_refl. change (GNode LvIdentifier (list_sum (map width (map pleaf bp))) (map pleaf bp)) with (gnode LvIdentifier (map pleaf bp)). rewrite T3, (line_words alpha alnum g ws (conj Nn (conj Fn G)) Ew Fw). cbn [lg_name lg_value lg_constant].
      destruct g as [n t v c]. cbn [lg_name lg_ty lg_value lg_constant] in *. destruct ws as [| w ws]; [now rewrite Ew|]. now rewrite join_spaced, <- Ew. }
    assert (Id : forall v w k t, k <> LvGlobalVar -> k <> LvKeyword -> ll_global_part (encode cs) v (w, leaf k t) = v).
    { intros v w k t K1 K2. unfold ll_global_part, leaf. apply Nat.eqb_neq in K1, K2. now rewrite K1, K2. }
    match goal with |- context [fold_left _ ?l _] => replace l with
      [(o, leaf LvGlobalVar (64%Z :: lg_name g)); (o + glen (leaf LvGlobalVar (64%Z :: lg_name g)), leaf LvWhitespace [32%Z]); (o + glen (leaf LvGlobalVar (64%Z :: lg_name g)) + glen (leaf LvWhitespace [32%Z]), leaf LvEqual [61%Z]);
       (o + glen (leaf LvGlobalVar (64%Z :: lg_name g)) + glen (leaf LvWhitespace [32%Z]) + glen (leaf LvEqual [61%Z]), leaf LvWhitespace [32%Z]); (o4, leaf LvKeyword (storage g)); (o4 + glen (leaf LvKeyword (storage g)), leaf LvWhitespace [32%Z]); (o6, gnode LvIdentifier (map pleaf bp))] by reflexivity end.
    pose proof (fun v w t => Id v w LvWhitespace t ltac:(discriminate) ltac:(discriminate)) as Iw. pose proof (fun v w t => Id v w LvEqual t ltac:(discriminate) ltac:(discriminate)) as Ie. cbn [fold_left]. rewrite P1, !Iw, Ie, P5.
    rewrite P7. now destruct (lg_name g).
  Qed.
End Build.

(** ** All globals *)
Section Whole.
  Variable alpha alnum : Z -> bool.
  Hypothesis Tb : tables alpha alnum.

  Definition row_fit (x : lglobal * list piece) : Prop :=
    good_global alpha alnum (fst x) /\ text_of_pieces (snd x) = line (fst x) /\ Forall (fun p : piece => exists k, fst p = Some k /\ k <> LvNewline /\ k <> LvComment) (snd x) /\ exists k s bp, snd x = (Some k, s) :: bp /\ k <> LvWhitespace.
  Fixpoint greens (first : bool) (l : list (lglobal * list piece)) : list green := match l with [] => [] | x :: r => item_green first x :: greens false r end.
  Lemma rows_cons first x r : rows first (x :: r) = (gap first ++ front (fst x) ++ snd x) ++ rows false r.
  Proof. destruct x as [g bp]. cbn [rows fst snd]. now rewrite <- !app_assoc. Qed.

  Lemma builds cs l : Forall row_fit l -> Forall is_scalar cs -> forall first pre, cs = pre ++ text_of_pieces (rows first l) ->
    flat_map (ll_build_item (encode cs)) (ll_placed (length (encode pre)) (greens first l)) = map LItemGlobal (map fst l).
  Proof.
    induction 1 as [| x r X _ IH]; intros F first pre E; [reflexivity|]. rewrite rows_cons, pieces_app in E. cbn [greens ll_placed flat_map map]. rewrite (proj2 (item_wide first x)).
    change (text_of_pieces (gap first ++ front (fst x) ++ snd x)) with (row_text first x) in E.
    replace (length (encode pre) + length (encode (row_text first x))) with (length (encode (pre ++ row_text first x))) by (now rewrite encode_app, app_length).
    rewrite (IH F false (pre ++ row_text first x)) by (rewrite E; now rewrite <- app_assoc). destruct x as [g bp]. destruct X as (G & Eb & _). cbn [fst snd] in *. rewrite E. rewrite (build_item alpha alnum Tb first g bp pre _ G Eb); [reflexivity | now rewrite <- E].
  Qed.

  Lemma in_lines bp : Forall (fun p : piece => exists k, fst p = Some k /\ k <> LvNewline /\ k <> LvComment) bp -> forall off, Forall in_line (spans off bp) /\ Forall (fun p : piece => fst p <> None) bp.
  Proof.
    induction 1 as [| [k s] bp (k' & E & N1 & N2) _ IH]; intros off; [split; constructor|]. cbn [fst] in E. subst k. cbn [spans app]. destruct (IH (off + length (encode s))) as [A B]. split; constructor; [now split | exact A | discriminate | exact B].
  Qed.

  Lemma items_run cs toks : Forall is_scalar cs -> (Z.of_nat (toklen toks) < 2 ^ 32)%Z -> forall l, Forall row_fit l -> forall first pre s trees fuel, cs = pre ++ text_of_pieces (rows first l) ->
    sees toks s (spans (length (encode pre)) (rows first l)) trees -> length l < fuel ->
    exists s', ll_items (encode cs) fuel s = Some (true, s') /\ sees toks s' [] (trees ++ greens first l) /\ ps_errs s' = ps_errs s.
  Proof.
    intros F Hfit. induction 1 as [| x r X _ IH]; intros first pre s trees fuel E V L; (destruct fuel as [| fuel]; [cbn in L; lia|]); cbn [ll_items].
    - cbn [rows spans] in V. rewrite (sees_end _ _ _ _ V). exists s. split; [reflexivity|]. cbn [greens]. rewrite app_nil_r. now split.
    - rewrite rows_cons in E, V. rewrite pieces_app in E. rewrite spans_app in V. change (text_of_pieces (gap first ++ front (fst x) ++ snd x)) with (row_text first x) in E, V.
      replace (length (encode pre) + length (encode (row_text first x))) with (length (encode (pre ++ row_text first x))) in V by (now rewrite encode_app, app_length).
      set (tl := spans (length (encode (pre ++ row_text first x))) (rows false r)) in *. destruct x as [g bp]. destruct X as (G & Eb & Fb & (k0 & s0 & bp0 & E0 & K0)). cbn [fst snd] in *.
      assert (Ht : forall t, hd_error tl = Some t -> tk_kind t = LvNewline). { unfold tl. destruct r as [| [g' bp'] r]; [discriminate|]. cbn [rows gap app spans hd_error]. intros t [= <-]. reflexivity. }
      rewrite !spans_app in V. set (o0 := length (encode pre)) in *. set (o1 := o0 + length (encode (text_of_pieces (gap first)))) in *. set (bt := spans (o1 + length (encode (text_of_pieces (front g)))) bp) in *.
      set (nl := spans o0 (gap first)) in *. unfold front in V. cbn [spans app] in V. rewrite <- !app_assoc in V. cbn [app] in V.
      match type of V with sees _ _ (nl ++ ?tv :: ?w1 :: ?te :: ?w2 :: ?tk :: ?w3 :: bt ++ tl) _ =>
        destruct (item_run (encode cs) toks Hfit s nl tv w1 te w2 tk w3 bt tl trees V) as (s1 & E1 & V1 & Er1); try reflexivity end.
      + unfold nl. destruct first; [now left | right; eexists; split; reflexivity].
      + assert (Tw : flat_text_in (encode cs) (length (encode (pre ++ text_of_pieces (gap first) ++ (64%Z :: lg_name g) ++ [32%Z] ++ [61%Z] ++ [32%Z]))) (length (encode (pre ++ text_of_pieces (gap first) ++ (64%Z :: lg_name g) ++ [32%Z] ++ [61%Z] ++ [32%Z])) + length (encode (storage g))) = encode (storage g)).
        { assert (Ec : cs = (pre ++ text_of_pieces (gap first) ++ (64%Z :: lg_name g) ++ [32%Z] ++ [61%Z] ++ [32%Z]) ++ storage g ++ ([32%Z] ++ text_of_pieces bp ++ text_of_pieces (rows false r))).
          { rewrite E. unfold row_text. rewrite !pieces_app. cbn [fst snd]. unfold front, text_of_pieces at 2. cbn [flat_map snd]. rewrite app_nil_r. repeat (first [rewrite <- app_assoc | progress (cbn [app])]). reflexivity. }
          rewrite Ec in F |- *. exact (proj1 (JsonAstBuildProofs.text_here _ _ _ F)). }
        assert (Tk : forall o, o = length (encode (pre ++ text_of_pieces (gap first) ++ (64%Z :: lg_name g) ++ [32%Z] ++ [61%Z] ++ [32%Z])) -> tk_word (encode cs) (Token LvKeyword o (o + length (encode (storage g)))) = encode (storage g)) by (intros o ->; exact Tw).
        rewrite Tk; [unfold storage; destruct (lg_constant g); [right | left]; reflexivity|]. unfold o1, o0. rewrite !encode_app, !app_length. cbn [length]. lia.
      + apply in_lines, Fb.
      + unfold bt. rewrite E0. cbn [spans app]. eexists _, _. split; [reflexivity | exact K0].
      + exact Ht.
      + match type of V1 with sees _ _ _ (_ ++ [?t]) => assert (Eg : t = item_green first (g, bp)) end.
        { unfold item_tree, item_green. cbn [fst snd]. unfold nl, bt. rewrite (spans_leaves bp) by (apply (in_lines bp Fb 0)). rewrite (spans_leaves (gap first)) by (destruct first; repeat constructor; discriminate).
          do 2 f_equal. unfold front. cbn [map]. rewrite !tokleaf_span. reflexivity. }
        rewrite Eg in V1. unfold andthen. rewrite (sees_end _ _ _ _ V). destruct (nl ++ _) eqn:En; [now destruct nl|]. clear En. rewrite E1.
        destruct (IH false (pre ++ row_text first (g, bp)) s1 (trees ++ [item_green first (g, bp)]) fuel) as (s' & E' & V' & Er'); [rewrite E; now rewrite <- app_assoc | exact V1 | cbn [length] in L; lia|].
        rewrite E'. exists s'. split; [reflexivity|]. split; [|congruence]. cbn [greens]. rewrite <- app_assoc in V'. exact V'.
  Qed.

  Lemma exists_last_case (l : list (lglobal * list piece)) : l = [] \/ exists l0 g bp, l = l0 ++ [(g, bp)].
  Proof. destruct l as [| x l]; [now left|]. destruct (@exists_last _ (x :: l)) as (l0 & [g bp] & E); [discriminate|]. right. now exists l0, g, bp. Qed.
  (** The end token joins the last line *)
  Definition end_piece : piece := (Some LvError, []).
  Lemma rows_end l0 g bp : forall first, rows first (l0 ++ [(g, bp ++ [end_piece])]) = rows first (l0 ++ [(g, bp)]) ++ [end_piece].
  Proof.
    induction l0 as [| [g' bp'] l0 IH]; intros first; cbn [app rows]; [now rewrite !app_nil_r, <- !app_assoc|]. rewrite IH, <- !app_assoc. reflexivity.
  Qed.
  Lemma row_fits x : row_ok alpha alnum x -> row_fit x.
  Proof.
    intros [G C]. split; [exact G|]. split; [exact (cut_text _ _ _ C)|]. split; [apply (body_kinds alpha alnum _ _ C), (line_chars alpha alnum _ G)|].
    destruct G as (_ & _ & [N F] & _). destruct (lg_ty (fst x)) as [| c r] eqn:E; [contradiction|]. apply Forall_inv in F. apply (body_head alpha alnum (line (fst x)) (snd x) c (r ++ 32%Z :: lg_value (fst x)) C); [unfold line; now rewrite E | exact F].
  Qed.
  Lemma fit_end g bp : row_fit (g, bp) -> row_fit (g, bp ++ [end_piece]).
  Proof.
    intros (G & E & F & (k & s & r & E0 & K)). cbn [fst snd] in *. split; [exact G|]. cbn [fst snd]. split; [rewrite pieces_app; cbn; now rewrite app_nil_r|]. split.
    - apply Forall_app. split; [exact F|]. constructor; [|constructor]. exists LvError. repeat split; discriminate.
    - exists k, s, (r ++ [end_piece]). rewrite E0. now split.
  Qed.
  Lemma rows_exist gs : Forall (good_global alpha alnum) gs -> exists l, map fst l = gs /\ Forall (row_ok alpha alnum) l.
  Proof.
    induction 1 as [| g gs G _ (l & E & F)]; [exists []; now split|]. destruct (ll_cut_exists alpha alnum (length (line g)) (line g) (le_n _)) as [bp C].
    { eapply Forall_impl; [|exact (line_chars alpha alnum g G)]. intros c. apply body_narrow. }
    exists ((g, bp) :: l). split; [cbn [map fst]; now rewrite E | constructor; [now split | exact F]].
  Qed.
  Lemma rows_scalar l : Forall (row_ok alpha alnum) l -> forall first, Forall is_scalar (text_of_pieces (rows first l)).
  Proof.
    assert (W : forall n, (0 <= n < 128)%Z -> is_scalar n) by (intros n H; unfold is_scalar; lia).
    induction 1 as [| [g bp] r [G C] _ IH]; intros first; [constructor|]. rewrite rows_cons, !pieces_app. cbn [fst snd] in *. rewrite !Forall_app. split; [|apply IH]. split; [destruct first; [constructor | constructor; [apply W; lia | constructor]]|]. split.
    - unfold front, text_of_pieces. cbn [flat_map snd]. destruct G as (_ & F & _). rewrite !Forall_app. split; [constructor; [apply W; lia | eapply Forall_impl; [|exact F]; now intros c [H _]]|]. split; [constructor; [apply W; lia | constructor]|]. split; [constructor; [apply W; lia | constructor]|]. split; [constructor; [apply W; lia | constructor]|].
      split; [|split; [constructor; [apply W; lia | constructor] | constructor]]. unfold storage. destruct (lg_constant g); apply Forall_forall; intros c I; apply W; vm_compute in I; lia.
    - rewrite (cut_text _ _ _ C). eapply Forall_impl; [|exact (line_chars alpha alnum g G)]. intros c. apply body_scalar.
  Qed.

  Theorem globals_round gs : Forall (good_global alpha alnum) gs -> (Z.of_nat (length (encode (ll_print (map LItemGlobal gs)))) < 2 ^ 32)%Z ->
    ll_build alpha alnum (encode (ll_print (map LItemGlobal gs))) = Some (Some (map LItemGlobal gs), []).
  Proof.
    intros Fg L. destruct (rows_exist gs Fg) as (l & El & Fl). pose proof (rows_text alpha alnum l Fl) as Tx. rewrite <- (map_map fst LItemGlobal), El in Tx.
    destruct (exists_last_case l) as [-> | (l0 & g & bp & ->)]; [cbn in El; subst gs; reflexivity|].
    set (l := l0 ++ [(g, bp)]) in *. set (l' := l0 ++ [(g, bp ++ [end_piece])]). set (cs := ll_print (map LItemGlobal gs)) in *.
    assert (Fit : Forall row_fit l'). { unfold l, l' in *. apply Forall_app in Fl. destruct Fl as [F0 F1]. apply Forall_app. split; [eapply Forall_impl; [|exact F0]; apply row_fits|]. constructor; [|constructor]. apply fit_end, row_fits. now apply Forall_inv in F1. }
    assert (Sc : Forall is_scalar cs) by (rewrite <- Tx; apply (rows_scalar l Fl)).
    assert (Er : rows true l' = rows true l ++ [end_piece]) by apply rows_end.
    assert (Tx' : cs = text_of_pieces (rows true l')) by (rewrite Er, pieces_app, Tx; cbn; now rewrite app_nil_r).
    destruct (rows_cut alpha alnum Tb l Fl true) as [C _]. rewrite Tx in C.
    unfold ll_build, ll_parse. rewrite (ll_lex_cut alpha alnum (flat_source (encode cs)) (encode cs) (flat_serves (encode cs) (ex_intro _ cs (conj Sc eq_refl))) (tables_letters alpha alnum Tb) cs _ (all_reads cs Sc) C).
    assert (Et : spans 0 (rows true l) ++ [Token LvError (length (encode cs)) (length (encode cs))] = spans 0 (rows true l')).
    { rewrite Er, spans_app, Tx. cbn [spans end_piece app encode length]. now rewrite !Nat.add_0_r. }
    pose proof (spans_fit cs (rows true l) (length (encode cs)) LvError Tx L) as Hfit. rewrite Et in Hfit |- *. set (toks := spans 0 (rows true l')) in *.
    destruct (sees_new ll_ignored toks Hfit (length (encode cs)) []) as [V0 E0]. set (s0 := ps_new ll_ignored toks (length (encode cs)) []) in *.
    assert (N0 : no_trivia ll_ignored toks = toks /\ trivia ll_ignored toks = []). { unfold toks, l'. destruct l0 as [| [g' bp'] l0]; cbn [app rows gap front spans no_trivia trivia tk_kind]; now split. }
    destruct N0 as [N0 N1]. rewrite N0, N1 in V0. cbn [map] in V0.
    destruct (items_run cs toks Sc Hfit l' Fit true [] s0 [] (S (length toks))) as (s1 & E1 & V1 & Er1); [exact Tx' | exact V0 | |].
    { unfold toks. clear - Fit. assert (H : forall l first off, Forall row_fit l -> length l <= length (spans off (rows first l))); [|specialize (H l' true 0 Fit); lia].
      clear. induction l as [| x r IH]; intros first off F; [cbn; lia|]. rewrite rows_cons, !spans_app, !app_length. cbn [length]. specialize (IH false (off + length (encode (text_of_pieces (gap first ++ front (fst x) ++ snd x)))) (Forall_inv_tail F)). unfold front at 1. cbn [spans app length]. lia. }
    unfold ll_root. fold s0. rewrite E1. cbn [app] in V1. destruct (sees_finish ll_ignored toks Hfit s1 [] [] (greens true l') (fst (checkpoint s0)) LvRoot V1) as (m & s2 & E2 & V2 & Er2).
    assert (C0 : checkpoint s0 = (fst (checkpoint s0), length (@nil green))) by (unfold checkpoint; cbn [fst]; f_equal; destruct V0 as (_ & _ & _ & Sk & _); now rewrite <- (map_length snd), Sk).
    rewrite C0, E2. cbn [option_map fst snd]. rewrite Er2, Er1, E0. unfold ll_build_root. cbn [ll_children gnode]. pose proof (builds cs l' Fit Sc true [] Tx') as Bd. cbn [encode flat_map length] in Bd. rewrite Bd. unfold l' in *. unfold l in El. rewrite map_app in El |- *. cbn [map fst] in El |- *. now rewrite El.
  Qed.
End Whole.
