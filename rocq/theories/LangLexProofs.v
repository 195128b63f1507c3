(** The loop of the example lexers cuts a text into pieces when each round does. *)
From Verif Require Import Base Utf8 Utf8Facts ScanSpec CursorModel CursorSpec CursorProofs LexModel LexSpec LexProofs LexLoopProofs.
From Verif Require Import JsonModel JsonLangSpec JsonLexProofs LangModel LangSpec.

Definition no_char (c : Z) : bool := false.

Section Rounds.
  Variable (src : source) (text : str) (rule : lexer -> option lexer) (tk : option nat -> list Z -> list Z -> Prop).
  Hypothesis Hs : serves src text.
  Hypothesis Hround : forall l c r, view src text l (c :: r) ->
    exists l' k s r', rule l = Some l' /\ c :: r = s ++ r' /\ s <> [] /\ tk k s r' /\ stepped src text l l' k r'.

  Lemma rounds_view : forall fuel cs l, view src text l cs -> length cs < fuel ->
    exists l' ps, rounds src rule fuel l = Some l' /\ cut tk cs ps /\ lx_toks l' = lx_toks l ++ spans (lx_pos l) ps /\ lx_pos l' = length text.
  Proof.
    induction fuel as [| f IH]; intros cs l V L; [lia|]. cbn [rounds]. unfold not_at_end. rewrite (Hlen src text Hs). pose proof (view_pos src text l cs V) as P. destruct cs as [| c r].
    - cbn [encode length] in P. destruct (Nat.ltb_spec (lx_pos l) (length text)); [lia|]. exists l, []. split; [reflexivity|]. split; [constructor|]. cbn [spans]. split; [now rewrite app_nil_r | lia].
    - cbn [encode] in P. rewrite app_length, encode_char_length in P. pose proof (char_len_pos c). destruct (Nat.ltb_spec (lx_pos l) (length text)); [|lia].
      destruct (Hround l c r V) as (l3 & k & s & r' & -> & Es & Ns & Tk & V3 & T3). destruct (IH r' l3 V3) as (l' & ps & E & Pp & T & O').
      { apply (f_equal (@length Z)) in Es. rewrite app_length in Es. cbn [length] in *. destruct s; [contradiction|]. cbn [length] in Es. lia. }
      exists l', ((k, s) :: ps). split; [assumption|]. split; [rewrite Es; now constructor|]. split; [|assumption].
      assert (O3 : lx_pos l3 = lx_pos l + length (encode s)). { pose proof (view_pos src text l3 r' V3). pose proof (view_pos src text l _ V) as P1. rewrite Es, encode_app, app_length in P1. lia. }
      rewrite T, T3. cbn [spans]. rewrite <- O3. now destruct k; rewrite <- app_assoc.
  Qed.

  Lemma new_view cs : reads text 0 (length text) cs -> view src text (new_lexer src) cs /\ lx_pos (new_lexer src) = 0.
  Proof.
    intros R. destruct (cursor_at_placed src text 0 Hs) as (P & O); [now rewrite Nat.min_0_l|]. rewrite Nat.min_0_l in O.
    split; [|exact O]. split; [exact P|]. change (lx_pos (new_lexer src)) with (cu_off (cursor_at src 0)). now rewrite O.
  Qed.

  Lemma lex_all_view eof cs : reads text 0 (length text) cs ->
    exists ps, cut tk cs ps /\ lex_all src rule eof = Some (spans 0 ps ++ [Token eof (length text) (length text)]).
  Proof.
    intros R. destruct (new_view cs R) as [V O]. destruct (rounds_view (scan_fuel src) cs _ V (view_length no_char no_char src text Hs _ _ V)) as (l' & ps & E & C & T & P).
    exists ps. split; [assumption|]. unfold lex_all. rewrite E. unfold add_eof. cbn [add_token lx_toks]. rewrite T, P, O. reflexivity.
  Qed.
End Rounds.

Lemma lx_moved_run src text l l' s r : view src text l (s ++ r) -> view src text l' r -> lx_moved l l' = match s with [] => false | _ => true end.
Proof. exact (moved_run no_char no_char src text l l' s r). Qed.
(** A run of characters that becomes a token when it is not empty. *)
Lemma token_if_view src text (Hs : serves src text) kind p l cs : view src text l cs ->
  exists l', option_map (token_if kind l) (lx_take_while src (scan_fuel src) p l) = Some (match char_run p cs with [] => false | _ => true end, l') /\
    view src text l' (drop_run p cs) /\
    lx_toks l' = lx_toks l ++ match char_run p cs with [] => [] | _ => [Token kind (lx_pos l) (lx_pos l')] end /\
    (char_run p cs = [] -> lx_pos l' = lx_pos l).
Proof.
  intros V. destruct (view_take src text Hs l cs p V) as (l1 & -> & V1 & O1 & T1). cbn [option_map]. unfold token_if.
  rewrite (lx_moved_run src text l l1 (char_run p cs) (drop_run p cs)); [|now rewrite run_drop | assumption]. destruct (char_run p cs) eqn:E.
  - exists l1. split; [reflexivity|]. split; [assumption|]. rewrite app_nil_r. split; [assumption|]. intros _. cbn in O1. lia.
  - eexists. split; [reflexivity|]. split; [exact V1|]. split; [|discriminate]. cbn [add_token lx_toks]. now rewrite T1.
Qed.

Lemma all_reads cs : Forall is_scalar cs -> reads (encode cs) 0 (length (encode cs)) cs.
Proof. intros F. split; [assumption|]. split; [lia|]. unfold substr. cbn [skipn]. now rewrite Nat.sub_0_r, firstn_all. Qed.
Lemma cut_text tk cs ps : cut tk cs ps -> text_of_pieces ps = cs.
Proof. induction 1 as [| k s r ps _ _ _ IH]; [reflexivity|]. cbn. unfold text_of_pieces in IH. now rewrite IH. Qed.
Lemma cut_cases (tk : option nat -> list Z -> list Z -> Prop) cs ps : cut tk cs ps -> (cs = [] /\ ps = []) \/
  exists k s r ps', cs = s ++ r /\ ps = (k, s) :: ps' /\ s <> [] /\ tk k s r /\ cut tk r ps'.
Proof. intros [| k s r ps' N T C]; [now left | right]. now exists k, s, r, ps'. Qed.
Lemma cut_unique (tk : option nat -> list Z -> list Z -> Prop) cs ps : (forall k s r k' s' r', s ++ r = s' ++ r' -> s <> [] -> s' <> [] -> tk k s r -> tk k' s' r' -> k = k' /\ s = s') -> cut tk cs ps -> forall ps', cut tk cs ps' -> ps = ps'.
Proof.
  intros U. induction 1 as [| k s r ps N T C IH]; intros ps' C'; apply cut_cases in C'; destruct C' as [[E ->] | (k1 & s1 & r1 & ps1 & E & -> & N1 & T1 & C1)].
  - reflexivity.
  - destruct s1; [contradiction | discriminate].
  - destruct s; [contradiction | discriminate].
  - destruct (U k s r k1 s1 r1) as [-> ->]; auto. apply app_inv_head in E. subst r1. f_equal. now apply IH.
Qed.
