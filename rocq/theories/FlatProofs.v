(** Lexers over a [SourceText] at any position, on a character boundary or not. *)
From Verif Require Import Base Utf8 Utf8Facts RopeModel SimdModel CursorModel LexModel JsonLangSpec LangModel.

Section Flat.
  Variable text : str.
  Notation src := (flat_source text).
  Notation len := (length text).

  Definition fl (off : nat) (toks : list token) : lexer := Lexer (Cursor off 0 text) toks.

  Lemma fl_new : new_lexer src = fl 0 [].
  Proof. unfold new_lexer, cursor_at, fl. cbn [flat_source src_len src_chunk_at Nat.min]. unfold flat_chunk_at. destruct text as [| b r]; reflexivity. Qed.

  Lemma fl_ensure off : off <= len -> ensure_chunk src (Cursor off 0 text) = Cursor off 0 text.
  Proof.
    intros H. unfold ensure_chunk, cu_end. cbn [cu_off cu_start cu_text flat_source src_len].
    destruct (Nat.ltb_spec len off); [lia|]. destruct (Nat.ltb_spec off 0); [lia|]. destruct (Nat.ltb_spec (0 + len) off); [lia|]. destruct (Nat.eqb_spec off (0 + len)), (Nat.ltb_spec off len); cbn; try reflexivity. lia.
  Qed.

  Lemma slice_end : slice_from 0 text len = [].
  Proof.
    unfold slice_from. destruct (Nat.leb_spec len 0) as [H|H]; [destruct text; [reflexivity | cbn in H; lia]|]. rewrite Nat.sub_0_r. unfold str_get_from.
    destruct ((len <=? len) && is_boundary text len); [|reflexivity]. now rewrite skipn_all.
  Qed.

  Lemma fl_current off toks : off <= len -> exists x, lx_current src (fl off toks) = (x, fl off toks) /\ (off = len -> x = None).
  Proof.
    intros H. unfold lx_current, fl, peek_char, rest. cbn [lx_cur cu_off cu_start cu_text lx_toks]. rewrite (fl_ensure off H). cbn [cu_off cu_start cu_text Nat.leb]. rewrite Nat.sub_0_r.
    destruct (Nat.ltb_spec off len).
    - destruct (is_boundary text off); [eexists; split; [reflexivity|lia]|]. cbv zeta. destruct (_ <? len); eexists; (split; [reflexivity|lia]).
    - assert (off = len) as -> by lia. rewrite slice_end. exists None. now split.
  Qed.

  Lemma fl_advance off toks n : lx_advance src (fl off toks) n = fl (Nat.min (off + n) len) toks.
  Proof. reflexivity. Qed.
  Lemma fl_pos off toks : lx_pos (fl off toks) = off. Proof. reflexivity. Qed.
  Lemma fl_add off toks k a b : add_token (fl off toks) k a b = fl off (toks ++ [Token k a b]). Proof. reflexivity. Qed.
  Lemma fl_more off toks : not_at_end src (fl off toks) = (off <? len). Proof. reflexivity. Qed.

  Lemma fl_starts off toks p : off <= len -> exists b, lx_starts_with src (fl off toks) p = Some (b, fl off toks).
  Proof.
    intros H. unfold lx_starts_with, starts_with, fl. cbn [lx_cur lx_toks]. rewrite (fl_ensure off H). cbv zeta. destruct (_ <=? _); [eexists; reflexivity|].
    cbn [gather]. unfold cu_end. cbn [cu_start cu_text flat_source src_len Nat.add]. rewrite Nat.ltb_irrefl, andb_false_r. eexists. reflexivity.
  Qed.

  (** One rule: moves on with a token of a kind in [K], or stays. *)
  Definition rule_ok (K : nat -> Prop) (r : lexer -> option (bool * lexer)) : Prop :=
    forall off toks, off < len ->
      r (fl off toks) = Some (false, fl off toks) \/
      exists off' k, off < off' <= len /\ K k /\ r (fl off toks) = Some (true, fl off' (toks ++ [Token k off off'])).

  Lemma rules_ok K rs : Forall (rule_ok K) rs -> rule_ok K (try_rules rs).
  Proof.
    induction 1 as [| r rs H _ IH]; intros off toks L; cbn [try_rules]; [now left|]. destruct (H off toks L) as [-> | (off' & k & B & Kk & ->)]; [exact (IH off toks L)|]. right. exists off', k. now repeat split.
  Qed.

  Lemma char_len_pos c : 1 <= char_len c.
  Proof. unfold char_len. repeat destruct (_ <? _)%Z; lia. Qed.

  Lemma guarded_ok K rs off toks : Forall (rule_ok K) rs -> off < len ->
    exists off' new, off < off' <= len /\ guarded_round src rs (fl off toks) = Some (fl off' (toks ++ new)) /\ (new = [] \/ exists k, new = [Token k off off'] /\ K k).
  Proof.
    intros H L. unfold guarded_round. destruct (rules_ok K rs H off toks L) as [-> | (off' & k & B & Kk & ->)].
    - unfold advance_if_dead_lock. rewrite Nat.eqb_refl. destruct (fl_current off toks ltac:(lia)) as (x & -> & _). destruct x as [c|]; rewrite fl_advance.
      + exists (Nat.min (off + char_len c) len), []. pose proof (char_len_pos c). rewrite app_nil_r. split; [lia|]. split; [reflexivity | now left].
      + exists (Nat.min (off + 1) len), []. rewrite app_nil_r. split; [lia|]. split; [reflexivity | now left].
    - exists off', [Token k off off']. split; [exact B|]. split; [reflexivity|]. right. now exists k.
  Qed.

  Lemma rounds_flat K rs : Forall (rule_ok K) rs -> forall fuel off toks, off <= len -> len - off < fuel ->
    exists new, rounds src (guarded_round src rs) fuel (fl off toks) = Some (fl len (toks ++ new)) /\ in_order off new len /\ Forall (fun t => K (tk_kind t) /\ tk_start t < tk_end t) new.
  Proof.
    intros H. induction fuel as [| f IH]; intros off toks L F; [lia|]. cbn [rounds]. rewrite fl_more. destruct (Nat.ltb_spec off len).
    - destruct (guarded_ok K rs off toks H ltac:(assumption)) as (off' & new & B & -> & N). destruct (IH off' (toks ++ new) ltac:(lia) ltac:(lia)) as (more & -> & O & Fo). exists (new ++ more). rewrite app_assoc. split; [reflexivity|].
      destruct N as [-> | (k & -> & Kk)]; cbn [app].
      + split; [|assumption]. destruct more as [| t r]; cbn in *; [lia|]. destruct O as (? & ? & ?). repeat split; try assumption. lia.
      + split; [cbn; repeat split; try lia; assumption|]. constructor; [split; [assumption | cbn; lia] | assumption].
    - exists []. assert (off = len) as -> by lia. rewrite app_nil_r. split; [reflexivity|]. split; [cbn; lia | constructor].
  Qed.

  Lemma lex_flat K rs eof : Forall (rule_ok K) rs ->
    exists toks, lex_all src (guarded_round src rs) eof = Some (toks ++ [Token eof len len]) /\ in_order 0 toks len /\ Forall (fun t => K (tk_kind t) /\ tk_start t < tk_end t) toks.
  Proof.
    intros H. unfold lex_all. rewrite fl_new. destruct (rounds_flat K rs H (scan_fuel src) 0 [] ltac:(lia)) as (toks & -> & O & F).
    { unfold scan_fuel. cbn [flat_source src_len]. lia. }
    exists toks. repeat split; assumption.
  Qed.

  (** Loops that move on by a positive amount or stop. *)
  Lemma take_flat p : forall fuel off toks, off <= len -> len - off < fuel -> exists off', off <= off' <= len /\ lx_take_while src fuel p (fl off toks) = Some (fl off' toks).
  Proof.
    induction fuel as [| f IH]; intros off toks L F; [lia|]. cbn [lx_take_while]. destruct (fl_current off toks L) as (x & -> & Hx). destruct x as [c|]; [|exists off; split; [lia|reflexivity]].
    assert (off < len). { destruct (Nat.eq_dec off len) as [E|]; [specialize (Hx E); discriminate | lia]. }
    destruct (p c); [|exists off; split; [lia|reflexivity]]. rewrite fl_advance. pose proof (char_len_pos c). destruct (IH (Nat.min (off + char_len c) len) toks ltac:(lia) ltac:(lia)) as (o' & B & ->). exists o'. split; [lia | reflexivity].
  Qed.
End Flat.
