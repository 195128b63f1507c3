From Verif Require Import Base Utf8 Utf8Facts ScanSpec SimdModel SimdProofs.
From Verif Require Import EditModel RopeModel RopeSpec RopeProofs CursorModel CursorSpec.

(** ** Sources *)

Lemma flat_serves : forall s, valid s -> serves (flat_source s) s.
Proof.
  intros s Hv. split; [assumption|]. split; [reflexivity|]. split.
  - intros off Hoff Hb. exists off, (skipn off s). simpl.
    rewrite flat_chunk_at_spec by assumption. split; [reflexivity|].
    assert (Hl : length (skipn off s) = length s - off) by apply skipn_length.
    assert (He : off + length (skipn off s) = length s) by lia.
    split; [|lia]. unfold delivered, piece_of. rewrite He.
    split; [|split; [lia | exists off; split; [assumption | cbn [flat_source src_chunk_at]; now apply flat_chunk_at_spec]]].
    split; [lia|]. split; [|split; [assumption | apply is_boundary_length]].
    unfold substr. rewrite firstn_all2; [reflexivity | lia].
  - intros off Hoff. simpl. unfold flat_chunk_at. now replace (length s <=? off) with true by lia.
Qed.

Lemma chunk_at_total : forall r off, wf_chunked r -> chunk_at r off <> None.
Proof.
  intros r off Hwf. destruct (Nat.lt_ge_cases off (length (text_of r))) as [H | H].
  - destruct (chunk_at_spec r off Hwf H) as (st & t & -> & _). discriminate.
  - destruct (chunk_at_end r off Hwf H) as [-> _]. discriminate.
Qed.

Lemma chunk_at_exact : forall r pre c post off,
  wf_chunked r -> ck_chunks r = pre ++ c :: post ->
  length (concat pre) <= off < length (concat pre) + length c ->
  chunk_at r off = Some (length (concat pre), c).
Proof.
  intros r pre c post off Hwf Heq Hr. pose proof (wf_eq r Hwf) as Hre. destruct Hwf as (Hok & _).
  rewrite Heq in Hok. rewrite Hre, Heq. unfold chunk_at. cbn [ck_len ck_starts ck_chunks rebuild].
  rewrite total_len_concat.
  assert (Hlen : length (concat (pre ++ c :: post)) = length (concat pre) + (length c + length (concat post))).
  { rewrite concat_app, app_length. simpl. now rewrite app_length. }
  replace (length (concat (pre ++ c :: post)) <=? off) with false by lia.
  rewrite find_chunk_locate by assumption.
  now rewrite starts_nth_mid, nth_error_mid.
Qed.

Lemma chunked_serves : forall r, wf_chunked r -> serves (chunked_source r) (text_of r).
Proof.
  intros r Hwf. split.
  { destruct Hwf as (Hok & _). apply valid_concat. eapply Forall_impl; [| exact Hok]. intros a [_ H]. exact H. }
  split; [now destruct Hwf as (_ & _ & _ & H)|]. split.
  - intros off Hoff Hboff. destruct (chunk_at_spec r off Hwf Hoff) as (st & t & H1 & _ & H2 & H3 & H4 & _ & H5 & H6).
    exists st, t. cbn [chunked_source src_chunk_at]. rewrite H1. split; [reflexivity|].
    split; [|assumption]. split; [split; [assumption|]; split; [assumption|]; split; assumption|].
    split; [|exists off; split; [assumption | cbn [chunked_source src_chunk_at]; now rewrite H1]].
    intros Hend. cbn [chunked_source src_chunk_at].
    pose proof Hwf as (Hok & _).
    destruct (locate _ _ Hok Hoff) as (pre & c & post & Heq & Hrange).
    rewrite (chunk_at_exact r pre c post off Hwf Heq) in H1 by lia. inv H1.
    destruct post as [| d post].
    { exfalso. unfold text_of in Hend. rewrite Heq, concat_app, app_length in Hend. simpl in Hend.
      rewrite app_nil_r in Hend. lia. }
    assert (Heq' : ck_chunks r = (pre ++ [t]) ++ d :: post) by (rewrite <- app_assoc; exact Heq).
    assert (Hlp : length (concat (pre ++ [t])) = length (concat pre) + length t).
    { rewrite concat_app, app_length. simpl. now rewrite app_nil_r. }
    assert (Hd : 0 < length d).
    { rewrite Heq' in Hok. apply Forall_app in Hok. destruct Hok as [_ Hok]. apply Forall_inv in Hok.
      destruct Hok as [Hne _]. destruct d; [now destruct Hne | simpl; lia]. }
    rewrite (chunk_at_exact r _ _ _ (length (concat pre) + length t) Hwf Heq') by lia.
    now simpl.
  - intros off Hoff. cbn [chunked_source src_chunk_at].
    destruct (chunk_at_end r off Hwf Hoff) as [-> _]. reflexivity.
Qed.

(** ** Pieces *)

Lemma piece_valid : forall text st t, valid text -> piece_of text st t -> valid t.
Proof.
  intros text st t Hv (Hl & Ht & Hb1 & Hb2). rewrite Ht. apply valid_substr; auto. lia.
Qed.

Lemma piece_suffix : forall text st t off,
  piece_of text st t -> st <= off <= st + length t ->
  skipn (off - st) t = substr text off (st + length t).
Proof.
  intros text st t off (Hl & Ht & _) Ho. rewrite Ht at 1. unfold substr.
  rewrite skipn_firstn_comm, skipn_skipn_add.
  replace (st + (off - st)) with off by lia. f_equal. lia.
Qed.

Lemma piece_boundary : forall text st t off,
  valid text -> piece_of text st t -> st <= off <= st + length t ->
  is_boundary t (off - st) = is_boundary text off.
Proof.
  intros text st t off Hv (Hl & Ht & Hb1 & Hb2) Ho.
  destruct (Nat.eq_dec off (st + length t)) as [-> | Hne].
  - rewrite Hb2. replace (st + length t - st) with (length t) by lia. apply is_boundary_length.
  - replace off with (st + (off - st)) at 2 by lia. rewrite boundary_skipn by assumption.
    rewrite Ht. unfold substr.
    apply boundary_firstn; [lia|]. rewrite skipn_length. lia.
Qed.

Lemma piece_nth : forall text st t off,
  piece_of text st t -> st <= off < st + length t ->
  nth_error t (off - st) = nth_error text off.
Proof.
  intros text st t off (Hl & Ht & _) Ho. rewrite Ht. unfold substr.
  rewrite nth_error_firstn by lia. rewrite nth_error_skipn. f_equal. lia.
Qed.

Lemma suffix_split : forall text a b, a <= b -> b <= length text ->
  skipn a text = substr text a b ++ skipn b text.
Proof.
  intros text a b Hab Hb. unfold substr.
  rewrite <- (firstn_skipn (b - a) (skipn a text)) at 1. f_equal.
  rewrite skipn_skipn_add. f_equal. lia.
Qed.

Lemma empty_piece : forall text, piece_of text (length text) [].
Proof.
  intros text. split; [simpl; lia|]. simpl. rewrite Nat.add_0_r. unfold substr.
  rewrite skipn_all, firstn_nil. repeat split; apply is_boundary_length.
Qed.

Lemma serve_at : forall src text off,
  serves src text -> is_boundary text off = true ->
  exists st t, src_chunk_at src off = (st, t) /\ delivered src text st t /\
    st <= off <= st + length t /\ (off < length text -> off < st + length t).
Proof.
  intros src text off (Hv & Hl & Hc & He) Hb.
  destruct (Nat.lt_ge_cases off (length text)) as [H | H].
  - destruct (Hc off H Hb) as (st & t & H1 & H2 & H3). exists st, t.
    split; [assumption|]. split; [assumption|]. lia.
  - pose proof (is_boundary_le _ _ Hb). exists (length text), []. rewrite He by assumption.
    split; [reflexivity|]. split; [|simpl; lia]. split; [apply empty_piece|]. split; [simpl; lia|].
    exists off. split; [assumption | now apply He].
Qed.

Lemma cursor_at_placed : forall src text off,
  serves src text -> is_boundary text (Nat.min off (length text)) = true ->
  placed src text (cursor_at src off) /\ cu_off (cursor_at src off) = Nat.min off (length text).
Proof.
  intros src text off Hs Hb. unfold cursor_at. pose proof Hs as (_ & Hl & _). rewrite Hl.
  destruct (serve_at _ _ _ Hs Hb) as (st & t & -> & Hp & _). split; [split; assumption | reflexivity].
Qed.

Lemma ensure_placed : forall src text c,
  serves src text -> placed src text c ->
  let c' := ensure_chunk src c in
  placed src text c' /\ cu_off c' = cu_off c /\ cu_start c' <= cu_off c <= cu_end c' /\
  (cu_off c < length text -> cu_off c < cu_end c').
Proof.
  intros src text c Hs (Hp & Hb). pose proof Hs as (_ & Hl & _). cbn zeta. unfold ensure_chunk.
  pose proof (is_boundary_le _ _ Hb) as Hle. rewrite Hl.
  replace (length text <? cu_off c) with false by lia.
  destruct ((cu_off c <? cu_start c) || (cu_end c <? cu_off c) || ((cu_off c =? cu_end c) && (cu_off c <? length text))) eqn:E.
  - destruct (serve_at _ _ _ Hs Hb) as (st & t & -> & Hp' & Hr & Hr'). unfold cu_end. simpl.
    split; [split; assumption|]. split; [reflexivity|]. split; assumption.
  - simpl. split; [split; assumption|]. split; [reflexivity|]. unfold cu_end in *. simpl. lia.
Qed.

Lemma ensure_text : forall src text c,
  serves src text -> placed src text c ->
  let c' := ensure_chunk src c in
  skipn (cu_off c' - cu_start c') (cu_text c') = substr text (cu_off c) (cu_end c') /\
  is_boundary (cu_text c') (cu_off c' - cu_start c') = true /\
  valid (substr text (cu_off c) (cu_end c')) /\ cu_end c' <= length text /\
  is_boundary text (cu_end c') = true.
Proof.
  intros src text c Hs Hc. pose proof Hs as (Hv & _).
  destruct (ensure_placed src text c Hs Hc) as (((Hp & _) & Hb) & Ho & Hr & _). cbn zeta in *.
  rewrite Ho in *. split; [now apply piece_suffix|].
  split; [rewrite (piece_boundary text); try assumption|].
  destruct Hp as (Hl & Ht & Hb1 & Hb2).
  split; [apply valid_substr; try assumption; unfold cu_end in *; lia|].
  split; [exact Hl | exact Hb2].
Qed.

Lemma str_get_from_skipn : forall t i, i <= length t -> is_boundary t i = true ->
  str_get_from t i = Some (skipn i t).
Proof. intros t i H Hb. unfold str_get_from. rewrite Hb. now replace (i <=? length t) with true by lia. Qed.

Lemma slice_from_piece : forall text st t off,
  valid text -> piece_of text st t -> st <= off <= st + length t -> is_boundary text off = true ->
  slice_from st t off = substr text off (st + length t).
Proof.
  intros text st t off Hv Hp Ho Hb. unfold slice_from. destruct (off <=? st) eqn:E.
  - assert (off = st) as -> by lia. now destruct Hp as (_ & ? & _).
  - rewrite str_get_from_skipn; [now apply piece_suffix | lia |].
    now rewrite (piece_boundary text st t off Hv Hp Ho).
Qed.

Lemma rest_spec : forall src text c,
  serves src text -> placed src text c ->
  exists c', rest src c = (substr text (cu_off c) (cu_end c'), c') /\ c' = ensure_chunk src c.
Proof.
  intros src text c Hs Hc. exists (ensure_chunk src c). split; [|reflexivity]. unfold rest. f_equal.
  destruct (ensure_placed src text c Hs Hc) as (((Hp & _) & Hb) & Ho & Hr & _). cbn zeta in *.
  rewrite Ho. apply slice_from_piece; try assumption; [now destruct Hs | now rewrite <- Ho].
Qed.

(** ** Characters at an offset *)

Lemma first_char_valid : forall t, valid t ->
  match first_char t with
  | Some ch => is_scalar ch /\ exists tl, t = encode_char ch ++ tl /\ valid tl
  | None => t = []
  end.
Proof.
  intros t [cs [Hs ->]]. unfold first_char. destruct cs as [| c cs]; [reflexivity|].
  inv Hs. rewrite decode1_encode by assumption. split; [assumption|].
  exists (encode cs). split; [reflexivity | now apply valid_encode].
Qed.

Lemma substr_nil_inv : forall text a b, a <= b -> b <= length text -> substr text a b = [] -> a = b.
Proof.
  intros text a b H1 H2 H. pose proof (substr_length text a b H1 H2) as Hl. rewrite H in Hl. simpl in Hl. lia.
Qed.

Lemma substr_prefix : forall text a b x tl, a <= b -> b <= length text ->
  substr text a b = x ++ tl -> substr text a (a + length x) = x /\ a + length x <= b.
Proof.
  intros text a b x tl H1 H2 H.
  assert (Hl : length x + length tl = b - a) by (rewrite <- app_length, <- H; apply substr_length; assumption).
  split; [|lia]. unfold substr in *. replace (a + length x - a) with (length x) by lia.
  assert (Hf : firstn (length x) (firstn (b - a) (skipn a text)) = x).
  { rewrite H. now rewrite firstn_app_exact. }
  rewrite firstn_firstn in Hf. now replace (Nat.min (length x) (b - a)) with (length x) in Hf by lia.
Qed.

Lemma first_char_at : forall text a b, a <= b -> b <= length text -> (a < length text -> a < b) ->
  valid (substr text a b) -> char_at text a (first_char (substr text a b)).
Proof.
  intros text a b H1 H2 H3 Hv. pose proof (first_char_valid _ Hv) as H.
  destruct (first_char (substr text a b)) as [ch|]; simpl.
  - destruct H as (Hs & tl & He & _). exists (a + char_len ch).
    destruct (substr_prefix _ _ _ _ _ H1 H2 He) as [Hp Hle]. rewrite encode_char_length in *.
    split; [constructor; [assumption | constructor]|]. split; [lia|]. simpl. now rewrite app_nil_r.
  - apply substr_nil_inv in H; lia.
Qed.

Lemma reads_end : forall text a b cs, reads text a b cs -> b = a + length (encode cs).
Proof.
  intros text a b cs (_ & Hr & He). rewrite <- He, substr_length; lia.
Qed.

Lemma reads_boundary : forall text a b cs, valid text -> is_boundary text a = true ->
  reads text a b cs -> is_boundary text b = true.
Proof.
  intros text a b cs Hv Hb H. pose proof (reads_end _ _ _ _ H) as He. destruct H as (Hs & Hr & H).
  destruct (valid_split _ _ Hv Hb) as [_ [ds [Hd Hds]]].
  rewrite He. rewrite boundary_skipn by assumption. rewrite Hds.
  assert (Hpre : encode ds = encode cs ++ skipn b text).
  { rewrite <- Hds, <- H. apply suffix_split; lia. }
  clear Hds He Hr H Hb.
  revert cs Hs Hpre. induction ds as [| d ds IH]; intros cs Hs Hpre.
  - destruct cs as [| c cs]; [reflexivity|]. simpl in Hpre. symmetry in Hpre.
    apply app_eq_nil in Hpre. destruct Hpre as [Hpre _]. apply app_eq_nil in Hpre.
    destruct Hpre as [Hpre _]. now apply encode_char_nonempty in Hpre.
  - destruct cs as [| c cs]; [reflexivity|].
    pose proof (Forall_inv Hs) as Hc. pose proof (Forall_inv_tail Hs) as Hs'.
    pose proof (Forall_inv Hd) as Hd1. pose proof (Forall_inv_tail Hd) as Hd'.
    simpl in Hpre. rewrite <- app_assoc in Hpre.
    assert (Heq : decode1 (encode_char d ++ encode ds) = decode1 (encode_char c ++ encode cs ++ skipn b text))
      by now rewrite Hpre.
    rewrite !decode1_encode_char in Heq by assumption. injection Heq as <- Heq.
    pose proof (IH Hd' cs Hs' Heq) as H. simpl. rewrite app_length.
    rewrite boundary_skipn with (s := encode_char d ++ encode ds).
    + rewrite skipn_app_exact. exact H.
    + apply valid_encode with (cs := d :: ds). assumption.
    + apply is_boundary_app. now apply valid_encode.
Qed.

Lemma reads_unique : forall text a b b' c c',
  reads text a b [c] -> reads text a b' [c'] -> c = c' /\ b = b'.
Proof.
  intros text a b b' c c' H1 H2. pose proof (reads_end _ _ _ _ H1) as E1. pose proof (reads_end _ _ _ _ H2) as E2.
  destruct H1 as (Hs1 & Hr1 & H1). destruct H2 as (Hs2 & Hr2 & H2).
  assert (P1 : skipn a text = encode_char c ++ skipn b text).
  { rewrite (suffix_split text a b) by lia. rewrite H1. simpl. now rewrite app_nil_r. }
  assert (P2 : skipn a text = encode_char c' ++ skipn b' text).
  { rewrite (suffix_split text a b') by lia. rewrite H2. simpl. now rewrite app_nil_r. }
  inv Hs1. inv Hs2. assert (Heq : decode1 (skipn a text) = decode1 (skipn a text)) by reflexivity.
  rewrite P1 in Heq at 1. rewrite P2 in Heq. rewrite !decode1_encode_char in Heq by assumption.
  injection Heq as -> _. auto.
Qed.

Lemma reads_nonempty : forall text a b c, reads text a b [c] -> a < length text.
Proof.
  intros text a b c H. pose proof (reads_end _ _ _ _ H) as E. destruct H as (_ & Hr & _).
  simpl in E. rewrite app_nil_r, encode_char_length in E. pose proof (char_len_pos c). lia.
Qed.

Lemma char_at_unique : forall text a r r', char_at text a r -> char_at text a r' -> r = r'.
Proof.
  intros text a [c|] [c'|] H1 H2; simpl in *; try reflexivity.
  - destruct H1 as [b H1], H2 as [b' H2]. now destruct (reads_unique _ _ _ _ _ _ H1 H2) as [-> _].
  - destruct H1 as [b H1]. apply reads_nonempty in H1. lia.
  - destruct H2 as [b H2]. apply reads_nonempty in H2. lia.
Qed.

(** ** Peeking *)

Lemma placed_inv_cases : forall src text c,
  serves src text -> placed src text c ->
  (cu_start c <= cu_off c /\ cu_off c - cu_start c < length (cu_text c) /\
   is_boundary (cu_text c) (cu_off c - cu_start c) = true /\
   skipn (cu_off c - cu_start c) (cu_text c) = substr text (cu_off c) (cu_end c) /\
   valid (substr text (cu_off c) (cu_end c)) /\ cu_end c <= length text) \/
  (cu_start c <=? cu_off c = false \/ cu_off c - cu_start c <? length (cu_text c) = false).
Proof.
  intros src text c (Hv & _) ((Hp & _) & Hb).
  destruct (cu_start c <=? cu_off c) eqn:E1; [|now right; left].
  destruct (cu_off c - cu_start c <? length (cu_text c)) eqn:E2; [|now right; right].
  left. pose proof Hp as (Hl & Ht & Hb1 & Hb2).
  split; [lia|]. split; [lia|]. split; [rewrite (piece_boundary text); try assumption; lia|].
  split; [apply piece_suffix; [assumption | unfold cu_end; lia]|].
  split; [apply valid_substr; try assumption; unfold cu_end; lia | exact Hl].
Qed.

Lemma peek_char_spec : forall src text c,
  serves src text -> placed src text c ->
  exists r c', peek_char src c = (r, c') /\ char_at text (cu_off c) r /\
    placed src text c' /\ cu_off c' = cu_off c.
Proof.
  intros src text c Hs Hc. unfold peek_char.
  assert (Hslow : exists r c', (let '(r, c') := rest src c in (first_char r, c')) = (r, c') /\
                  char_at text (cu_off c) r /\ placed src text c' /\ cu_off c' = cu_off c).
  { destruct (rest_spec src text c Hs Hc) as (c' & Hr & Hc'). rewrite Hr.
    exists (first_char (substr text (cu_off c) (cu_end c'))), c'. split; [reflexivity|].
    destruct (ensure_placed src text c Hs Hc) as (Hp & Ho & Hrng & Hlt).
    destruct (ensure_text src text c Hs Hc) as (_ & _ & Hv & Hle & _). cbn zeta in *. rewrite <- Hc' in *.
    split; [apply first_char_at; try assumption; lia|]. auto. }
  destruct (placed_inv_cases src text c Hs Hc) as [(H1 & H2 & H3 & H4 & H5 & H6) | [H | H]].
  - replace (cu_start c <=? cu_off c) with true by lia.
    replace (cu_off c - cu_start c <? length (cu_text c)) with true by lia. rewrite H3, H4.
    eexists _, c. split; [reflexivity|]. split; [|split; [assumption | reflexivity]].
    apply first_char_at; try assumption; unfold cu_end in *; lia.
  - rewrite H. exact Hslow.
  - rewrite H. destruct (cu_start c <=? cu_off c); exact Hslow.
Qed.

Lemma peek_byte_spec : forall src text c,
  serves src text -> placed src text c ->
  exists c', peek_byte src c = (nth_error text (cu_off c), c') /\ placed src text c' /\ cu_off c' = cu_off c.
Proof.
  intros src text c Hs Hc. unfold peek_byte.
  assert (Hslow : exists c', (let c' := ensure_chunk src c in
        (nth_error (cu_text c') (cu_off c' - cu_start c'), c')) = (nth_error text (cu_off c), c')
        /\ placed src text c' /\ cu_off c' = cu_off c).
  { exists (ensure_chunk src c). destruct (ensure_placed src text c Hs Hc) as (Hp & Ho & Hrng & Hlt).
    cbn zeta in *. split; [|auto]. f_equal. rewrite Ho.
    destruct (Nat.lt_ge_cases (cu_off c) (length text)) as [H | H].
    - apply piece_nth; [now destruct Hp as [[? _] _] | unfold cu_end in *; lia].
    - assert (nth_error text (cu_off c) = None) as -> by (apply nth_error_None; lia).
      apply nth_error_None. destruct Hp as (((Hl & _) & _) & _). unfold cu_end in *. lia. }
  destruct (placed_inv_cases src text c Hs Hc) as [(H1 & H2 & H3 & H4 & H5 & H6) | [H | H]].
  - replace (cu_start c <=? cu_off c) with true by lia.
    replace (cu_off c - cu_start c <? length (cu_text c)) with true by lia.
    exists c. split; [|auto]. f_equal. destruct Hc as [[Hp _] _]. apply piece_nth; [assumption|]. lia.
  - rewrite H. exact Hslow.
  - rewrite H. destruct (cu_start c <=? cu_off c); exact Hslow.
Qed.

Lemma get_char_at_spec : forall src text off,
  serves src text -> is_boundary text off = true -> char_at text off (get_char_at src off).
Proof.
  intros src text off Hs Hb. unfold get_char_at. pose proof Hs as (Hv & _).
  destruct (serve_at _ _ _ Hs Hb) as (st & t & -> & (Hp & _) & Hr & Hlt).
  rewrite (slice_from_piece text) by assumption. destruct Hp as (Hl & Ht & Hb1 & Hb2).
  apply first_char_at; try lia. apply valid_substr; try assumption. lia.
Qed.

Lemma peek_next_n_spec : forall src text c n,
  serves src text -> placed src text c -> is_boundary text (cu_off c + n) = true ->
  char_at text (cu_off c + n) (peek_next_n src c n).
Proof.
  intros src text c n Hs ((Hp & _) & Hb) Hb'. unfold peek_next_n. pose proof Hs as (Hv & Hl & _). rewrite Hl.
  destruct (length text <=? cu_off c + n) eqn:E1; [simpl; lia|].
  destruct ((cu_start c <=? cu_off c + n) && (cu_off c + n <? cu_end c)) eqn:E2.
  - unfold cu_end in *. pose proof Hp as (Hle & Ht & Hb1 & Hb2).
    rewrite str_get_from_skipn; [|lia|].
    + rewrite (piece_suffix text) by (assumption || lia).
      apply first_char_at; try lia. apply valid_substr; try assumption. lia.
    + rewrite (piece_boundary text); try assumption. lia.
  - now apply get_char_at_spec.
Qed.

(** ** Scanning loops *)

Section Scan.
Variable src : source.
Variable text : str.
Hypothesis Hs : serves src text.

(** [T]: how many bytes of a flat text the scan should consume. *)
Variable T : str -> nat.
Variable scan : str -> option (nat * bool).
Hypothesis T_nil : T [] = 0.
Hypothesis scan_ok : forall t, valid t -> exists adv stop, scan t = Some (adv, stop) /\
  (stop = true -> forall r, valid r -> T (t ++ r) = adv) /\
  (stop = false -> adv = length t /\ forall r, valid r -> T (t ++ r) = length t + T r).

Lemma scan_loop_spec : forall fuel c,
  placed src text c -> length text - cu_off c < fuel ->
  exists c', scan_loop src scan fuel c = Some c' /\
    cu_off c' = cu_off c + T (skipn (cu_off c) text) /\
    delivered src text (cu_start c') (cu_text c').
Proof.
  induction fuel as [| f IH]; intros c Hc Hf; [lia|].
  destruct (ensure_placed src text c Hs Hc) as (Hp & Ho & Hrng & Hlt).
  destruct (ensure_text src text c Hs Hc) as (Ht & Hb & Hv & Hle & Hbe).
  cbn [scan_loop]. cbn zeta in *. set (c1 := ensure_chunk src c) in *.
  pose proof Hs as (Hvt & Hl & _). rewrite Hl.
  assert (Htl : (if cu_off c1 - cu_start c1 <? length (cu_text c1)
                 then skipn (cu_off c1 - cu_start c1) (cu_text c1) else [])
                = substr text (cu_off c) (cu_end c1)).
  { rewrite <- Ht. destruct (cu_off c1 - cu_start c1 <? length (cu_text c1)) eqn:E; [reflexivity|].
    symmetry. apply skipn_all2. lia. }
  rewrite Htl.
  assert (Hsplit : skipn (cu_off c) text = substr text (cu_off c) (cu_end c1) ++ skipn (cu_end c1) text)
    by (apply suffix_split; lia).
  assert (Hlen : length (substr text (cu_off c) (cu_end c1)) = cu_end c1 - cu_off c)
    by (apply substr_length; lia).
  assert (Hvr : valid (skipn (cu_end c1) text)) by now apply valid_split.
  destruct (substr text (cu_off c) (cu_end c1)) as [| b0 t0] eqn:Et.
  - assert (length text <= cu_off c) by (simpl in Hlen; destruct (Nat.lt_ge_cases (cu_off c) (length text)); lia).
    rewrite Ho. replace (length text <=? cu_off c) with true by lia.
    exists c1. split; [reflexivity|]. rewrite (skipn_all2 text) by lia. rewrite T_nil, Nat.add_0_r.
    split; [assumption|]. now destruct Hp.
  - destruct (scan_ok (b0 :: t0) Hv) as (adv & stop & -> & Hstop & Hgo). rewrite Ho. cbn [cu_off].
    destruct stop.
    + cbn [orb]. eexists. split; [reflexivity|]. cbn [cu_off cu_start cu_text].
      rewrite Hsplit, (Hstop eq_refl) by assumption. split; [reflexivity|]. now destruct Hp.
    + destruct (Hgo eq_refl) as [-> Hgo']. cbn [orb]. rewrite Hsplit, Hgo' by assumption. rewrite Hlen.
      replace (cu_off c + (cu_end c1 - cu_off c)) with (cu_end c1) by lia.
      destruct (length text <=? cu_end c1) eqn:El.
      * eexists. split; [reflexivity|]. cbn [cu_off cu_start cu_text].
        rewrite (skipn_all2 text) by lia. rewrite T_nil.
        split; [lia|]. now destruct Hp.
      * assert (Hlt' : cu_off c < cu_end c1) by (apply Hlt; lia).
        destruct (IH (Cursor (cu_end c1) (cu_start c1) (cu_text c1))) as (c' & Hc' & Ho' & Hp').
        -- split; [now destruct Hp | assumption].
        -- cbn [cu_off]. lia.
        -- exists c'. split; [exact Hc'|]. split; [|exact Hp']. cbn [cu_off] in Ho'. lia.
Qed.

Lemma scan_spec : forall c, placed src text c ->
  exists c', scan_loop src scan (scan_fuel src) c = Some c' /\
    cu_off c' = cu_off c + T (skipn (cu_off c) text) /\
    delivered src text (cu_start c') (cu_text c').
Proof.
  intros c Hc. apply scan_loop_spec; [assumption|]. destruct Hs as (_ & Hl & _).
  unfold scan_fuel. rewrite Hl. lia.
Qed.
End Scan.

Lemma scan_simd_ok : forall skip p,
  (forall t, skip t = Some (span_len p t)) ->
  forall t, valid t -> exists adv stop, scan_simd skip t = Some (adv, stop) /\
  (stop = true -> forall r, valid r -> span_len p (t ++ r) = adv) /\
  (stop = false -> adv = length t /\ forall r, valid r -> span_len p (t ++ r) = length t + span_len p r).
Proof.
  intros skip p Hk t _. unfold scan_simd. rewrite Hk. eexists _, _. split; [reflexivity|].
  pose proof (span_len_le p t). split.
  - intros Hl r _. rewrite span_len_app, Hl. reflexivity.
  - intros Hl. split; [lia|]. intros r _. now rewrite span_len_app, Hl.
Qed.

Lemma scan_bytes_span : forall p bs i adv,
  (adv = i) -> scan_bytes p bs i adv = (i + span_len p bs, span_len p bs <? length bs).
Proof.
  induction bs as [| b bs IH]; intros i adv ->; simpl.
  - f_equal. lia.
  - destruct (p b); simpl.
    + rewrite IH by reflexivity. f_equal; lia.
    + f_equal. lia.
Qed.

(** Characters satisfying a predicate at the start of a text. *)
Fixpoint char_run (p : Z -> bool) (cs : list Z) : list Z :=
  match cs with [] => [] | c :: r => if p c then c :: char_run p r else [] end.

Definition char_span (p : Z -> bool) (s : str) : nat := length (encode (char_run p (chars s))).

Lemma chars_app : forall a b, valid a -> valid b -> chars (a ++ b) = chars a ++ chars b.
Proof.
  intros a b [ca [Ha ->]] [cb [Hb ->]]. rewrite <- encode_app.
  rewrite !chars_encode by (try assumption; now apply Forall_app). reflexivity.
Qed.

Lemma scan_chars_run : forall p cs i adv, adv = i ->
  scan_chars p cs i adv = (i + length (encode (char_run p cs)), negb (length (char_run p cs) =? length cs)).
Proof.
  induction cs as [| c cs IH]; intros i adv ->; simpl.
  - f_equal. lia.
  - destruct (p c); simpl.
    + rewrite IH by reflexivity. rewrite app_length, encode_char_length. f_equal. lia.
    + f_equal. lia.
Qed.

Lemma char_run_prefix : forall p cs, exists tl, cs = char_run p cs ++ tl /\
  match tl with [] => True | c :: _ => p c = false end.
Proof.
  induction cs as [| c cs (tl & H1 & H2)]; simpl; [exists []; auto|].
  destruct (p c) eqn:E; [exists tl; simpl; split; [now f_equal | assumption] | exists (c :: cs); auto].
Qed.

Lemma char_run_app : forall p a b, char_run p (a ++ b)
  = if length (char_run p a) =? length a then a ++ char_run p b else char_run p a.
Proof.
  induction a as [| c a IH]; intros b; simpl; [reflexivity|]. destruct (p c); simpl; [|reflexivity].
  rewrite IH. now destruct (length (char_run p a) =? length a).
Qed.

Lemma char_run_forall : forall p cs, Forall (fun c => p c = true) (char_run p cs).
Proof. induction cs as [| c cs IH]; simpl; [constructor|]. destruct (p c) eqn:E; constructor; auto. Qed.

Lemma char_run_all : forall p cs, length (char_run p cs) = length cs -> char_run p cs = cs.
Proof.
  induction cs as [| c cs IH]; simpl; [reflexivity|]. destruct (p c); simpl; [|discriminate].
  intros H. f_equal. apply IH. lia.
Qed.

Lemma scan_chars_ok : forall p t, valid t -> exists adv stop,
  Some (scan_chars p (chars t) 0 0) = Some (adv, stop) /\
  (stop = true -> forall r, valid r -> char_span p (t ++ r) = adv) /\
  (stop = false -> adv = length t /\ forall r, valid r -> char_span p (t ++ r) = length t + char_span p r).
Proof.
  intros p t Hv. rewrite scan_chars_run by reflexivity. eexists _, _. split; [reflexivity|].
  destruct (valid_chars t Hv) as [He _].
  split; intros Hst.
  - intros r Hr. unfold char_span. rewrite chars_app, char_run_app by assumption.
    destruct (length (char_run p (chars t)) =? length (chars t)); [discriminate | reflexivity].
  - destruct (length (char_run p (chars t)) =? length (chars t)) eqn:E; [|discriminate].
    apply Nat.eqb_eq in E. rewrite (char_run_all _ _ E), He. split; [reflexivity|].
    intros r Hr. unfold char_span. rewrite chars_app, char_run_app by assumption.
    replace (length (char_run p (chars t)) =? length (chars t)) with true by lia.
    rewrite encode_app, app_length, He. reflexivity.
Qed.

Lemma take_while_byte_spec : forall src text c p,
  serves src text -> placed src text c ->
  exists c' n, take_while_byte src p c = Some c' /\ cu_off c' = cu_off c + n /\
    longest_run (fun b => p b = true) (skipn (cu_off c) text) n.
Proof.
  intros src text c p Hs Hc.
  destruct (scan_spec src text Hs (span_len p) (fun t => Some (scan_bytes p t 0 0)) eq_refl) with (c := c)
    as (c' & H1 & H2 & _); [|assumption|].
  - intros t _. rewrite scan_bytes_span by reflexivity. eexists _, _. split; [reflexivity|].
    pose proof (span_len_le p t). split; intros Hst; [|split; [lia|]]; intros r _;
      rewrite span_len_app, Hst; reflexivity.
  - exists c', (span_len p (skipn (cu_off c) text)). split; [exact H1|]. split; [exact H2|].
    apply span_len_run. tauto.
Qed.

(** ** Staying on boundaries *)

Lemma ascii_step_boundary : forall s i b,
  valid s -> nth_error s i = Some b -> (0 <= b < 128)%Z ->
  is_boundary s i = true /\ is_boundary s (S i) = true.
Proof.
  intros s i b Hv Hn Hb.
  assert (Hi : is_boundary s i = true).
  { unfold is_boundary. destruct i; [reflexivity|]. rewrite Hn. unfold is_cont. lia. }
  split; [assumption|].
  destruct (valid_split s i Hv Hi) as [_ [ds [Hd Hds]]].
  replace (S i) with (i + 1) by lia. rewrite boundary_skipn by assumption. rewrite Hds.
  assert (Hn' : nth_error (skipn i s) 0 = Some b) by (rewrite nth_error_skipn; now rewrite Nat.add_0_r).
  rewrite Hds in Hn'. destruct ds as [| d ds]; [discriminate|].
  pose proof (Forall_inv Hd) as Hd1. pose proof (Forall_inv_tail Hd) as Hd'.
  assert (Hdb : encode_char d = [d] /\ d = b).
  { unfold is_scalar in Hd1. cbn [nth_error app encode] in Hn'. unfold encode_char in *.
    destruct (d <? 128)%Z eqn:E1; [cbn [nth_error app encode] in Hn'; inv Hn'; auto|].
    exfalso. destruct (d <? 2048)%Z eqn:E2; cbn [nth_error app encode] in Hn'.
    - assert (0xC0 + d / 64 = b)%Z by congruence.
      assert (0 <= d / 64)%Z by (apply Z.div_pos; lia). lia.
    - destruct (d <? 65536)%Z eqn:E3; cbn [nth_error app encode] in Hn'.
      + assert (0xE0 + d / 4096 = b)%Z by congruence.
        assert (0 <= d / 4096)%Z by (apply Z.div_pos; lia). lia.
      + assert (0xF0 + d / 262144 = b)%Z by congruence.
        assert (0 <= d / 262144)%Z by (apply Z.div_pos; lia). lia. }
  destruct Hdb as [Hd0 _]. simpl. rewrite Hd0.
  apply (is_boundary_app [d]). now apply valid_encode.
Qed.

Lemma span_boundary : forall p s, valid s -> (forall b, p b = true -> (0 <= b < 128)%Z) ->
  is_boundary s (span_len p s) = true.
Proof.
  intros p s Hv Hp.
  destruct (span_len_run p (fun b => p b = true) s ltac:(tauto)) as (Hle & Hall & _).
  destruct (span_len p s) as [| n] eqn:E; [reflexivity|].
  destruct (nth_error s n) as [b|] eqn:En; [|apply nth_error_None in En; lia].
  apply (ascii_step_boundary s n b Hv En). apply Hp, (Hall n); [lia | assumption].
Qed.

Lemma until_boundary : forall x s, valid s -> (0 <= x < 128)%Z ->
  is_boundary s (span_len (fun b => negb (b =? x)%Z) s) = true.
Proof.
  intros x s Hv Hx.
  destruct (span_len_run (fun b => negb (b =? x)%Z) (fun b => b <> x) s ltac:(lia)) as (Hle & _ & Hno).
  set (n := span_len _ _) in *. destruct (nth_error s n) as [b|] eqn:En.
  - assert (b = x) as -> by (destruct (Z.eq_dec b x) as [->|Hne]; [reflexivity | now destruct (Hno b eq_refl)]).
    now apply (ascii_step_boundary s n x).
  - apply nth_error_None in En. replace n with (length s) by lia. apply is_boundary_length.
Qed.

(** ** Prefix tests *)

Lemma prefixb_iff : forall p s, prefixb p s = true <-> exists tl, s = p ++ tl.
Proof.
  induction p as [| x p IH]; intros s; simpl.
  - split; [intros _; now exists s | auto].
  - destruct s as [| y s]; [split; [discriminate | intros [tl H]; discriminate]|].
    rewrite Bool.andb_true_iff, IH. split.
    + intros [Hx [tl ->]]. exists tl. f_equal. lia.
    + intros [tl H]. inv H. split; [lia | now exists tl].
Qed.

Lemma prefixb_app : forall p a b, length p <= length a -> prefixb p (a ++ b) = prefixb p a.
Proof.
  induction p as [| x p IH]; intros a b Hl; simpl; [reflexivity|].
  destruct a as [| y a]; simpl in *; [lia|]. f_equal. apply IH. lia.
Qed.

Lemma occurs_prefixb : forall p text i, i <= length text ->
  (occurs p text i <-> prefixb p (skipn i text) = true).
Proof.
  intros p text i Hi. rewrite prefixb_iff. unfold occurs. split.
  - intros [tl [H _]]. now exists tl.
  - intros [tl H]. now exists tl.
Qed.

Lemma gather_spec : forall src text off, serves src text -> forall fuel want next,
  off <= next -> is_boundary text next = true -> length text - next < fuel ->
  (next < length text -> fst (src_chunk_at src next) = next) ->
  exists e, gather src fuel want (substr text off next) next = Some (substr text off e) /\
    off <= e <= length text /\ (want <= e - off \/ e = length text).
Proof.
  intros src text off Hs. induction fuel as [| f IH]; intros want next Ho Hb Hf Hat; [lia|].
  cbn [gather]. pose proof Hs as (Hv & Hl & _). rewrite Hl.
  pose proof (is_boundary_le _ _ Hb) as Hle.
  rewrite (substr_length text off next) by assumption.
  destruct ((next - off <? want) && (next <? length text)) eqn:E.
  - destruct (serve_at _ _ _ Hs Hb) as (st & t & Hch & (Hp & Hcont & _) & Hr & Hlt).
    rewrite Hch in *. simpl in Hat.
    assert (Hlt' : next < st + length t) by (apply Hlt; lia).
    assert (st = next) as -> by (apply Hat; lia).
    pose proof Hp as (Hpl & Hpt & _ & Hpb).
    replace (substr text off next ++ t) with (substr text off (next + length t)).
    + apply IH; [lia | assumption | lia | assumption].
    + rewrite Hpt at 2. apply substr_split; lia.
  - exists next. split; [reflexivity|]. lia.
Qed.

Lemma starts_with_spec : forall src text c pat,
  serves src text -> placed src text c ->
  exists b c', starts_with src c pat = Some (b, c') /\
    (b = true <-> occurs pat text (cu_off c)) /\ placed src text c' /\ cu_off c' = cu_off c.
Proof.
  intros src text c pat Hs Hc. unfold starts_with. pose proof Hs as (Hv & Hl & _). rewrite Hl.
  destruct (ensure_placed src text c Hs Hc) as (Hp & Ho & Hrng & Hlt).
  destruct (ensure_text src text c Hs Hc) as (Ht & Hb & Hvs & Hle & Hbe). cbn zeta in *.
  set (c1 := ensure_chunk src c) in *. rewrite Hb.
  rewrite str_get_from_skipn by (try assumption; unfold cu_end in *; lia). rewrite Ht.
  assert (Hsplit : skipn (cu_off c) text = substr text (cu_off c) (cu_end c1) ++ skipn (cu_end c1) text)
    by (apply suffix_split; lia).
  assert (Hoc : occurs pat text (cu_off c) <-> prefixb pat (skipn (cu_off c) text) = true)
    by (apply occurs_prefixb; lia).
  destruct (length pat <=? length (substr text (cu_off c) (cu_end c1))) eqn:E.
  - eexists _, c1. split; [reflexivity|]. split; [|auto].
    rewrite Hoc, Hsplit, prefixb_app by lia. tauto.
  - pose proof Hp as ((Hpc & Hcont & _) & Hbo).
    destruct (gather_spec src text (cu_off c) Hs (S (length text)) (length pat) (cu_end c1)) as (e & -> & Hre & Hw);
      [lia | assumption | lia | exact Hcont |].
    eexists _, c1. split; [reflexivity|]. split; [|split; assumption].
    rewrite Hoc, (suffix_split text (cu_off c) e) by lia. destruct Hw as [Hw | Hw].
    + rewrite prefixb_app; [tauto|]. rewrite substr_length; lia.
    + subst e. rewrite skipn_all, app_nil_r. tauto.
Qed.

(** ** Steps *)

Lemma occurs_end : forall p text i, occurs p text i -> i + length p <= length text.
Proof.
  intros p text i [tl [H Hi]].
  assert (Hl : length (skipn i text) = length p + length tl) by (rewrite H; apply app_length).
  rewrite skipn_length in Hl. lia.
Qed.

Lemma occurs_reads : forall p text i, valid p -> occurs p text i ->
  exists cs, p = encode cs /\ reads text i (i + length p) cs.
Proof.
  intros p text i [cs [Hs Hp]] Ho. exists cs. split; [assumption|].
  pose proof (occurs_end _ _ _ Ho). destruct Ho as [tl [H1 H2]].
  split; [assumption|]. split; [lia|]. unfold substr. rewrite H1.
  replace (i + length p - i) with (length p) by lia. rewrite firstn_app_exact. assumption.
Qed.

Lemma simd_step : forall src text c skip p P mk,
  serves src text -> placed src text c ->
  (forall t, skip t = Some (span_len p t)) -> (forall b, p b = true <-> P b) ->
  (forall s, valid s -> is_boundary s (span_len p s) = true) ->
  (forall n, longest_run P (skipn (cu_off c) text) n ->
     flat_step text (cu_off c) mk (ORange (cu_off c) (cu_off c + n)) (cu_off c + n)) ->
  exists o c', range_step c (scan_loop src (scan_simd skip) (scan_fuel src) c) = Some (o, c') /\
    flat_step text (cu_off c) mk o (cu_off c') /\ placed src text c'.
Proof.
  intros src text c skip p P mk Hs Hc Hk HP Hbd Hstep.
  destruct (scan_spec src text Hs (span_len p) (scan_simd skip) eq_refl (scan_simd_ok skip p Hk) c Hc)
    as (c' & Hc' & Ho & Hp).
  rewrite Hc'. simpl. eexists _, c'. split; [reflexivity|]. rewrite Ho. split.
  - apply Hstep, span_len_run. assumption.
  - split; [assumption|]. rewrite Ho. destruct Hs as (Hv & _). destruct Hc as (_ & Hb).
    rewrite boundary_skipn by assumption. apply Hbd. now apply valid_split.
Qed.

Lemma take_while_step : forall src text c p,
  serves src text -> placed src text c ->
  exists c' cs, take_while src p c = Some c' /\ placed src text c' /\
    reads text (cu_off c) (cu_off c') cs /\ Forall (fun ch => p ch = true) cs /\
    (forall b ch, reads text (cu_off c') b [ch] -> p ch = false).
Proof.
  intros src text c p Hs Hc.
  destruct (scan_spec src text Hs (char_span p) (fun t => Some (scan_chars p (chars t) 0 0)) eq_refl
              (scan_chars_ok p) c Hc) as (c' & Hc' & Ho & Hp).
  pose proof Hs as (Hv & _). pose proof Hc as (_ & Hb).
  destruct (valid_split _ _ Hv Hb) as [_ Hvs]. destruct (valid_chars _ Hvs) as [He Hsc].
  set (cs := chars (skipn (cu_off c) text)) in *.
  destruct (char_run_prefix p cs) as (tl & Hcs & Htl).
  pose proof (is_boundary_le _ _ Hb) as Hle.
  assert (Heq : skipn (cu_off c) text = encode (char_run p cs) ++ encode tl).
  { rewrite <- encode_app, <- Hcs. symmetry. exact He. }
  assert (Hlen : length text - cu_off c = length (encode (char_run p cs)) + length (encode tl)).
  { rewrite <- app_length, <- Heq. symmetry. apply skipn_length. }
  unfold char_span in Ho. fold cs in Ho.
  assert (Hsr : Forall is_scalar (char_run p cs) /\ Forall is_scalar tl).
  { rewrite Hcs in Hsc. now apply Forall_app in Hsc. }
  assert (Hrd : reads text (cu_off c) (cu_off c') (char_run p cs)).
  { split; [tauto|]. split; [lia|]. rewrite Ho. unfold substr. rewrite Heq.
    replace (cu_off c + length (encode (char_run p cs)) - cu_off c) with (length (encode (char_run p cs))) by lia.
    apply firstn_app_exact. }
  exists c', (char_run p cs). split; [exact Hc'|].
  split; [split; [assumption | eapply reads_boundary; eassumption]|].
  split; [assumption|]. split; [apply char_run_forall|].
  intros b ch Hr.
  assert (Hsk : skipn (cu_off c') text = encode tl).
  { rewrite Ho, <- skipn_skipn_add, Heq. apply skipn_app_exact. }
  destruct tl as [| d tl].
  - apply reads_nonempty in Hr. simpl in Hlen. lia.
  - destruct Hr as (Hsch & Hrr & Hr). apply Forall_inv in Hsch. destruct Hsr as [_ Hsr]. apply Forall_inv in Hsr.
    assert (Hd : skipn (cu_off c') text = encode_char ch ++ skipn b text).
    { rewrite (suffix_split text (cu_off c') b) by lia. rewrite Hr. simpl. now rewrite app_nil_r. }
    rewrite Hsk in Hd. simpl in Hd.
    assert (Hdd : decode1 (encode_char d ++ encode tl) = decode1 (encode_char ch ++ skipn b text)) by now rewrite Hd.
    rewrite !decode1_encode_char in Hdd by assumption. injection Hdd as -> _. assumption.
Qed.

Lemma step_refines : forall src text c k,
  serves src text -> placed src text c -> legal text k ->
  exists o c', cursor_step src c k = Some (o, c') /\
    flat_step text (cu_off c) k o (cu_off c') /\ placed src text c'.
Proof.
  intros src text c k Hs Hc Hk. pose proof Hs as (Hv & Hl & _). pose proof Hc as (Hd & Hb).
  pose proof (is_boundary_le _ _ Hb) as Hle.
  destruct k; cbn [cursor_step].
  - destruct (peek_char_spec src text c Hs Hc) as (r & c' & -> & Hr & Hp & Ho).
    eexists _, c'. split; [reflexivity|]. rewrite Ho. split; [now constructor | assumption].
  - destruct (peek_char_spec src text c Hs Hc) as (r & c' & Hpk & Hr & Hp & Ho).
    unfold peek_next_char. rewrite Hpk. destruct r as [ch|].
    + destruct Hr as [b Hr]. pose proof (reads_boundary _ _ _ _ Hv Hb Hr) as Hbb.
      pose proof (reads_end _ _ _ _ Hr) as He. simpl in He. rewrite app_nil_r, encode_char_length in He.
      eexists _, c'. split; [reflexivity|]. rewrite Ho. split; [|assumption].
      eapply FPeekNext; [exact Hr|]. rewrite He, <- Ho. apply peek_next_n_spec; try assumption.
      now rewrite Ho, <- He.
    + eexists _, c'. split; [reflexivity|]. rewrite Ho. split; [|assumption]. now apply FPeekNext0.
  - destruct (peek_byte_spec src text c Hs Hc) as (c' & -> & Hp & Ho).
    eexists _, c'. split; [reflexivity|]. rewrite Ho. split; [constructor | assumption].
  - destruct (peek_char_spec src text c Hs Hc) as (r & c' & Hpk & Hr & Hp & Ho).
    unfold advance_char. rewrite Hpk. destruct r as [ch|].
    + destruct Hr as [b Hr]. pose proof (reads_boundary _ _ _ _ Hv Hb Hr) as Hbb.
      pose proof (reads_end _ _ _ _ Hr) as He. simpl in He. rewrite app_nil_r, encode_char_length in He.
      pose proof Hr as (_ & Hrr & _).
      assert (Hoo : cu_off (advance_bytes src c' (char_len ch)) = b).
      { unfold advance_bytes. simpl. rewrite Hl, Ho. lia. }
      eexists _, _. split; [reflexivity|]. rewrite Hoo. split; [now apply FNext|].
      destruct Hp as [Hpd _]. split; [exact Hpd | now rewrite Hoo].
    + eexists _, c'. split; [reflexivity|]. rewrite Ho. split; [|assumption]. now apply FNext0.
  - eapply simd_step; try eassumption.
    + intros t. unfold skip_ascii_whitespace. apply simd_skip_span. lanes.
    + intros b. instantiate (1 := whitespace_byte). lanes.
    + intros s Hvs. apply span_boundary; [assumption|]. lanes.
    + intros n Hn. now constructor.
  - eapply simd_step; try eassumption.
    + intros t. unfold skip_ascii_digits. apply simd_skip_span. lanes.
    + intros b. instantiate (1 := digit_byte). lanes.
    + intros s Hvs. apply span_boundary; [assumption|]. lanes.
    + intros n Hn. now constructor.
  - eapply simd_step; try eassumption.
    + intros t. unfold skip_ascii_ident_continue. apply simd_skip_span. lanes.
    + intros b'. instantiate (1 := ident_byte). lanes.
    + intros s Hvs. apply span_boundary; [assumption|]. lanes.
    + intros n Hn. now constructor.
  - eapply simd_step; try eassumption.
    + intros t. apply skip_until_span.
    + intros b'. instantiate (1 := fun x => x <> b). simpl. lia.
    + intros s Hvs. now apply until_boundary.
    + intros n Hn. now constructor.
  - destruct (take_while_step src text c p Hs Hc) as (c' & cs & -> & Hp & Hr & Hf & Hm).
    simpl. eexists _, c'. split; [reflexivity|]. split; [|assumption]. econstructor; eassumption.
  - destruct (starts_with_spec src text c pat Hs Hc) as (b & c' & -> & Hbo & Hp & Ho).
    eexists _, c'. split; [reflexivity|]. rewrite Ho. split; [|assumption].
    destruct b; [apply FStartsYes; now apply Hbo | apply FStartsNo].
    intros H. apply Hbo in H. discriminate.
  - destruct (starts_with_spec src text c pat Hs Hc) as (b & c' & Hst & Hbo & Hp & Ho).
    unfold consume_if_starts_with. rewrite Hst. destruct b.
    + assert (Hoc : occurs pat text (cu_off c)) by now apply Hbo.
      pose proof (occurs_end _ _ _ Hoc) as Hend.
      assert (Hoo : cu_off (advance_bytes src c' (length pat)) = cu_off c + length pat).
      { unfold advance_bytes. simpl. rewrite Hl, Ho. lia. }
      eexists _, _. split; [reflexivity|]. rewrite Hoo. split; [now apply FConsumeYes|].
      destruct Hp as [Hpd _]. split; [exact Hpd|]. rewrite Hoo.
      destruct (occurs_reads _ _ _ Hk Hoc) as (cs & _ & Hr). now apply (reads_boundary _ _ _ _ Hv Hb Hr).
    + eexists _, c'. split; [reflexivity|]. rewrite Ho. split; [|assumption].
      apply FConsumeNo. intros H. apply Hbo in H. discriminate.
  - eexists _, _. split; [reflexivity|]. unfold set_position. cbn [cu_off]. rewrite Hl.
    split; [constructor|]. split; [exact Hd | exact Hk].
Qed.

Lemma run_refines : forall src text ks c,
  serves src text -> placed src text c -> Forall (legal text) ks ->
  exists os c', cursor_run src c ks = Some (os, c') /\
    flat_run text (cu_off c) ks os (cu_off c') /\ placed src text c'.
Proof.
  intros src text ks. induction ks as [| k ks IH]; intros c Hs Hc Hk.
  - exists [], c. split; [reflexivity|]. split; [constructor | assumption].
  - inv Hk. destruct (step_refines src text c k Hs Hc H1) as (o & c1 & H3 & H4 & H5).
    destruct (IH c1 Hs H5 H2) as (os & c2 & H6 & H7 & H8).
    exists (o :: os), c2. simpl. rewrite H3, H6. split; [reflexivity|].
    split; [econstructor; eassumption | assumption].
Qed.

(** ** The flat semantics is deterministic *)

Lemma reads_app : forall text a b c x y,
  reads text a b x -> reads text b c y -> reads text a c (x ++ y).
Proof.
  intros text a b c x y (Hs1 & Hr1 & H1) (Hs2 & Hr2 & H2). split; [now apply Forall_app|].
  split; [lia|]. rewrite encode_app, <- H1, <- H2. apply substr_split; lia.
Qed.

Lemma reads_cons : forall text a b c cs, reads text a b (c :: cs) ->
  exists m, reads text a m [c] /\ reads text m b cs.
Proof.
  intros text a b c cs H. pose proof (reads_end _ _ _ _ H) as He. destruct H as (Hs & Hr & H).
  simpl in H, He. rewrite app_length, encode_char_length in He.
  destruct (substr_prefix text a b (encode_char c) (encode cs)) as [H1 H2]; [lia | lia | exact H|].
  rewrite encode_char_length in *. exists (a + char_len c). inv Hs. split.
  - split; [constructor; [assumption | constructor]|]. split; [lia|]. simpl. now rewrite app_nil_r.
  - split; [assumption|]. split; [lia|].
    rewrite (substr_split text a (a + char_len c)) in H by lia. rewrite H1 in H.
    now apply app_inv_head in H.
Qed.

Lemma take_unique : forall text p cs a b cs' b',
  reads text a b cs -> Forall (fun c => p c = true) cs -> (forall e ch, reads text b e [ch] -> p ch = false) ->
  reads text a b' cs' -> Forall (fun c => p c = true) cs' -> (forall e ch, reads text b' e [ch] -> p ch = false) ->
  b = b'.
Proof.
  intros text p cs. induction cs as [| c cs IH]; intros a b cs' b' H1 H2 H3 H4 H5 H6.
  - pose proof (reads_end _ _ _ _ H1) as E. simpl in E. rewrite Nat.add_0_r in E. subst b.
    destruct cs' as [| c' cs']; [apply reads_end in H4; simpl in H4; lia|].
    destruct (reads_cons _ _ _ _ _ H4) as (m & Hm & _). apply Forall_inv in H5.
    apply H3 in Hm. congruence.
  - destruct (reads_cons _ _ _ _ _ H1) as (m & Hm & Hrest).
    destruct cs' as [| c' cs'].
    + pose proof (reads_end _ _ _ _ H4) as E. simpl in E. rewrite Nat.add_0_r in E. subst b'.
      apply Forall_inv in H2. apply H6 in Hm. congruence.
    + destruct (reads_cons _ _ _ _ _ H4) as (m' & Hm' & Hrest').
      destruct (reads_unique _ _ _ _ _ _ Hm Hm') as [<- <-].
      apply (IH m b cs' b'); try assumption; now apply Forall_inv_tail in H2 + now apply Forall_inv_tail in H5.
Qed.

Lemma flat_step_det : forall text off k o1 a1 o2 a2,
  flat_step text off k o1 a1 -> flat_step text off k o2 a2 -> o1 = o2 /\ a1 = a2.
Proof.
  intros text off k o1 a1 o2 a2 H1 H2.
  destruct H1; inversion H2; subst; try (split; reflexivity);
    try (match goal with
         | A : longest_run ?P ?s ?n, B : longest_run ?P ?s ?m |- _ =>
             assert (n = m) as -> by (eapply longest_run_unique; eassumption); split; reflexivity
         end);
    try (exfalso; match goal with A : ~ _ |- _ => apply A; assumption end);
    try (exfalso; match goal with A : reads _ _ _ [_], B : length _ <= _ |- _ =>
           apply reads_nonempty in A; lia end).
  - split; [f_equal; eapply char_at_unique; eassumption | reflexivity].
  - match goal with A : reads _ _ ?b [?c], B : reads _ _ ?b' [?c'] |- _ =>
      destruct (reads_unique _ _ _ _ _ _ A B) as [-> ->] end.
    split; [f_equal; eapply char_at_unique; eassumption | reflexivity].
  - match goal with A : reads _ _ ?b [?c], B : reads _ _ ?b' [?c'] |- _ =>
      destruct (reads_unique _ _ _ _ _ _ A B) as [-> ->] end. auto.
  - match goal with A : reads _ _ ?b ?cs, B : reads _ _ ?b' ?cs' |- _ =>
      assert (b = b') as -> by (eapply (take_unique text p cs off b cs' b'); eassumption) end. auto.
Qed.

Lemma flat_run_det : forall text off ks o1 a1 o2 a2,
  flat_run text off ks o1 a1 -> flat_run text off ks o2 a2 -> o1 = o2 /\ a1 = a2.
Proof.
  intros text off ks o1 a1 o2 a2 H1. revert o2 a2.
  induction H1 as [| off k o m ks os e Hstep Hrun IH]; intros o2 a2 H2; inversion H2; subst; [auto|].
  match goal with B : flat_step _ _ _ _ _ |- _ => destruct (flat_step_det _ _ _ _ _ _ _ Hstep B) as [-> ->] end.
  match goal with B : flat_run _ _ _ _ _ |- _ => destruct (IH _ _ B) as [-> ->] end. auto.
Qed.

Lemma sources_indistinguishable : forall src1 src2 text off ks,
  serves src1 text -> serves src2 text ->
  is_boundary text (Nat.min off (length text)) = true -> Forall (legal text) ks ->
  exists os c1 c2, cursor_run src1 (cursor_at src1 off) ks = Some (os, c1) /\
    cursor_run src2 (cursor_at src2 off) ks = Some (os, c2) /\ cu_off c1 = cu_off c2.
Proof.
  intros src1 src2 text off ks H1 H2 Hb Hk.
  destruct (cursor_at_placed src1 text off H1 Hb) as [P1 O1].
  destruct (cursor_at_placed src2 text off H2 Hb) as [P2 O2].
  destruct (run_refines src1 text ks _ H1 P1 Hk) as (os1 & c1 & R1 & F1 & _).
  destruct (run_refines src2 text ks _ H2 P2 Hk) as (os2 & c2 & R2 & F2 & _).
  rewrite O1 in F1. rewrite O2 in F2.
  destruct (flat_run_det _ _ _ _ _ _ _ F1 F2) as [-> Ho].
  exists os2, c1, c2. auto.
Qed.
