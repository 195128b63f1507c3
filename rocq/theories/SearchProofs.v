(** Searching: [find_str] and [find_char_from]. *)
From Verif Require Import Base Utf8 Utf8Facts ScanSpec SimdModel SimdProofs.
From Verif Require Import EditModel RopeModel RopeSpec RopeProofs CursorModel CursorSpec CursorProofs.

Lemma find_sub_some : forall p s i, find_sub p s = Some i ->
  i <= length s /\ prefixb p (skipn i s) = true /\ forall j, j < i -> prefixb p (skipn j s) = false.
Proof.
  intros p s. induction s as [| b s IH]; intros i H; simpl in H.
  - destruct (prefixb p []) eqn:E; [|discriminate]. inv H. simpl. split; [lia|]. split; [assumption|]. intros; lia.
  - destruct (prefixb p (b :: s)) eqn:E.
    + inv H. split; [lia|]. split; [assumption|]. intros; lia.
    + destruct (find_sub p s) as [k|] eqn:Ek; [|discriminate]. inv H.
      destruct (IH k eq_refl) as (H1 & H2 & H3). simpl. split; [lia|]. split; [assumption|].
      intros j Hj. destruct j as [| j]; [exact E|]. simpl. apply H3. lia.
Qed.

Lemma find_sub_none : forall p s, find_sub p s = None ->
  forall j, j <= length s -> prefixb p (skipn j s) = false.
Proof.
  intros p s. induction s as [| b s IH]; intros H j Hj; simpl in H.
  - destruct (prefixb p []) eqn:E; [discriminate|]. simpl in Hj. now replace j with 0 by lia.
  - destruct (prefixb p (b :: s)) eqn:E; [discriminate|].
    destruct (find_sub p s) eqn:Ek; [discriminate|].
    destruct j as [| j]; [exact E|]. simpl in *. apply IH; [reflexivity | lia].
Qed.

Lemma skipn_substr : forall text a e k, a + k <= e -> e <= length text ->
  skipn k (substr text a e) = substr text (a + k) e.
Proof.
  intros text a e k H1 H2. unfold substr. rewrite skipn_firstn_comm, skipn_skipn_add. f_equal. lia.
Qed.

(** A match inside a window is an occurrence, and vice versa if it fits. *)
Lemma window_occurs : forall p text a e, a <= e -> e <= length text ->
  prefixb p (substr text a e) = true -> occurs p text a.
Proof.
  intros p text a e H1 H2 H. apply occurs_prefixb; [lia|].
  apply prefixb_iff in H. destruct H as [tl H]. apply prefixb_iff.
  exists (tl ++ skipn e text). rewrite (suffix_split text a e) by assumption. rewrite H. now rewrite app_assoc.
Qed.

Lemma occurs_window : forall p text a e, a + length p <= e -> e <= length text ->
  occurs p text a -> prefixb p (substr text a e) = true.
Proof.
  intros p text a e H1 H2 H. apply occurs_prefixb in H; [|lia].
  rewrite (suffix_split text a e) in H by lia. rewrite prefixb_app in H; [assumption|].
  rewrite substr_length; lia.
Qed.

Lemma find_in_window_some : forall p text a e i, a <= e -> e <= length text ->
  find_sub p (substr text a e) = Some i ->
  occurs p text (a + i) /\ a + i <= e /\
  forall j, a <= j < a + i -> j + length p <= e -> ~ occurs p text j.
Proof.
  intros p text a e i H1 H2 H. destruct (find_sub_some _ _ _ H) as (Hi & Hp & Hno).
  rewrite substr_length in Hi by assumption.
  rewrite skipn_substr in Hp by lia. split; [eapply window_occurs; [| | exact Hp]; lia|]. split; [lia|].
  intros j Hj Hfit Ho. specialize (Hno (j - a) ltac:(lia)). rewrite skipn_substr in Hno by lia.
  replace (a + (j - a)) with j in Hno by lia.
  rewrite (occurs_window p text j e) in Hno by assumption. discriminate.
Qed.

Lemma find_in_window_none : forall p text a e, a <= e -> e <= length text ->
  find_sub p (substr text a e) = None ->
  forall j, a <= j -> j + length p <= e -> ~ occurs p text j.
Proof.
  intros p text a e H1 H2 H j Hj Hfit Ho.
  pose proof (find_sub_none _ _ H (j - a)) as Hno. rewrite substr_length in Hno by assumption.
  specialize (Hno ltac:(lia)). rewrite skipn_substr in Hno by lia.
  replace (a + (j - a)) with j in Hno by lia.
  rewrite (occurs_window p text j e) in Hno by assumption. discriminate.
Qed.

(** The tail kept for the spanning search is a window ending at the chunk end. *)
Lemma kept_tail : forall text off e keep, valid text -> is_boundary text off = true ->
  is_boundary text e = true -> off <= e -> e <= length text ->
  let t := substr text off e in
  exists ts, (match str_get_from t (length t - keep) with Some x => x | None => [] end) = substr text ts e /\
    off <= ts <= e /\
    (is_boundary text (e - keep) = true -> ts = Nat.max off (e - keep)) /\
    e - length (substr text ts e) = ts.
Proof.
  intros text off e keep Hv Hb Hbe Hoe He t.
  assert (Hlt : length t = e - off) by (apply substr_length; assumption).
  unfold str_get_from. replace (length t - keep <=? length t) with true by lia. cbn [andb].
  assert (Hbt : forall k, off + k <= e -> is_boundary t k = is_boundary text (off + k)).
  { intros k Hk.
    destruct (Nat.eq_dec (off + k) e) as [Heq | Hne].
    - rewrite Heq, Hbe. replace k with (length t) by lia. apply is_boundary_length.
    - rewrite boundary_skipn by assumption. unfold t, substr. apply boundary_firstn; [lia|]. rewrite skipn_length. lia. }
  destruct (is_boundary t (length t - keep)) eqn:E.
  - exists (off + (length t - keep)). 
    split; [exact (skipn_substr text off e (length t - keep) ltac:(lia) He)|].
    split; [lia|]. split; [lia|].
    rewrite substr_length; lia.
  - exists e. rewrite substr_length by lia. unfold substr at 1. rewrite Nat.sub_diag. split; [reflexivity|]. split; [lia|].
    split; [|lia]. intros Hbk. exfalso.
    rewrite Hbt in E by lia. destruct (Nat.le_gt_cases (e - keep) off) as [Hle | Hgt].
    + replace (off + (length t - keep)) with off in E by lia. congruence.
    + replace (off + (length t - keep)) with (e - keep) in E by lia. congruence.
Qed.

Section Find.
Variables (src : source) (text pat : str).
Hypothesis Hs : serves src text.
Hypothesis Hpat : pat <> [].

(** What one run of the loop establishes. *)
Lemma find_str_loop_spec : forall fuel offset c,
  placed src text (Cursor offset (cu_start c) (cu_text c)) -> length text - offset < fuel ->
  exists r c', find_str_loop src fuel pat offset c = Some (r, c') /\
    (forall i, r = Some i -> offset <= i /\ occurs pat text i) /\
    (wide_chunks src text (length pat - 1) -> first_occurrence pat text offset r).
Proof.
  induction fuel as [| f IH]; intros offset c Hc Hf; [lia|].
  pose proof Hs as (Hv & Hl & _ & _).
  assert (Hp1 : 1 <= length pat) by (destruct pat; [now destruct Hpat | simpl; lia]).
  cbn [find_str_loop]. rewrite Hl.
  destruct (length text <=? offset) eqn:E0.
  { eexists _, _. split; [reflexivity|]. split; [discriminate|]. intros _ j Hj Ho.
    apply occurs_end in Ho. lia. }
  destruct (ensure_placed src text _ Hs Hc) as (Hp & Ho & Hrng & Hlt).
  destruct (ensure_text src text _ Hs Hc) as (Ht & _ & Hvt & Hle & Hbe). cbn zeta in *.
  set (c1 := ensure_chunk src (Cursor offset (cu_start c) (cu_text c))) in *. cbn [cu_off] in *.
  assert (Hsl : slice_from (cu_start c1) (cu_text c1) offset = substr text offset (cu_end c1)).
  { destruct Hp as ((Hpp & _) & Hbo). apply slice_from_piece; try assumption. now rewrite <- Ho. }
  rewrite Hsl.
  assert (Hbo : is_boundary text offset = true) by (destruct Hc; assumption).
  destruct (find_sub pat (substr text offset (cu_end c1))) as [pos|] eqn:Ef.
  { destruct (find_in_window_some _ _ _ _ _ (proj2 Hrng) Hle Ef) as (H1 & H2 & H3).
    eexists _, _. split; [reflexivity|]. split; [intros i [= <-]; split; [lia | assumption]|].
    intros _. split; [lia|]. split; [assumption|]. intros j Hj.
    apply H3; [lia|]. destruct (find_sub_some _ _ _ Ef) as (_ & Hpre & _).
    rewrite skipn_substr in Hpre by lia. apply prefixb_iff in Hpre. destruct Hpre as [tl Htl].
    assert (Hll : length (substr text (offset + pos) (cu_end c1)) = length pat + length tl) by (rewrite Htl; apply app_length).
    rewrite substr_length in Hll by lia. lia. }
  pose proof (find_in_window_none _ _ _ _ (proj2 Hrng) Hle Ef) as Hnone.
  destruct (length text <=? cu_end c1) eqn:E1.
  { eexists _, _. split; [reflexivity|]. split; [discriminate|]. intros _ j Hj Hoc.
    pose proof (occurs_end _ _ _ Hoc). apply (Hnone j); try assumption. lia. }
  assert (Hlt' : offset < cu_end c1) by (apply Hlt; lia).
  (* the next chunk *)
  destruct (serve_at src text (cu_end c1) Hs Hbe) as (st & t & Hch & Hdel & Hr & Hr').
  pose proof Hp as ((Hpc & Hcont & Hfrom) & _).
  assert (Hst : st = cu_end c1).
  { unfold cu_end in *. specialize (Hcont ltac:(lia)). rewrite Hch in Hcont. exact Hcont. }
  subst st. pose proof Hdel as ((Hnl & Hnt & _ & Hnb) & _ & _).
  set (next_end := cu_end c1 + length t) in *.
  destruct (kept_tail text offset (cu_end c1) (length pat - 1) Hv Hbo Hbe (proj2 Hrng) Hle)
    as (ts & Htail & Hts & Htsb & Htsl). cbn zeta in *.
  rewrite Htail, Hch. cbn [snd].
  assert (Hwin : substr text ts (cu_end c1) ++ t = substr text ts next_end).
  { rewrite Hnt. symmetry. apply substr_split; lia. }
  (* the recursive call *)
  destruct (IH (cu_end c1) c1) as (r & c' & Hr1 & Hr2 & Hr3).
  { split; [exact (proj1 Hp) | exact Hbe]. }
  { lia. }
  assert (Hrec : (forall j, wide_chunks src text (length pat - 1) -> offset <= j < cu_end c1 -> ~ occurs pat text j) ->
    exists r0 c0, find_str_loop src f pat (cu_end c1) c1 = Some (r0, c0) /\
      (forall i, r0 = Some i -> offset <= i /\ occurs pat text i) /\
      (wide_chunks src text (length pat - 1) -> first_occurrence pat text offset r0)).
  { intros Hno. exists r, c'. split; [exact Hr1|]. split.
    - intros i Hi. destruct (Hr2 i Hi). split; [lia | assumption].
    - intros Hw. specialize (Hr3 Hw). destruct r as [i|]; simpl in *.
      + destruct Hr3 as (G1 & G2 & G3). split; [lia|]. split; [assumption|]. intros j Hj.
        destruct (Nat.lt_ge_cases j (cu_end c1)); [apply Hno; [assumption | lia] | apply G3; lia].
      + intros j Hj. destruct (Nat.lt_ge_cases j (cu_end c1)); [apply Hno; [assumption | lia] | apply Hr3; lia]. }
  (* under the width hypothesis the window reaches far enough on both sides *)
  assert (Hwide : wide_chunks src text (length pat - 1) ->
            ts = Nat.max offset (cu_end c1 - (length pat - 1)) /\
            (cu_end c1 + (length pat - 1) <= next_end \/ next_end = length text)).
  { intros Hw. split.
    - apply Htsb. destruct Hfrom as (o1 & Ho1 & Hch1).
      destruct (Hw o1 (cu_start c1) (cu_text c1) Ho1 Hch1) as [Hend | [_ Hcut]]; [unfold cu_end in *; lia | exact Hcut].
    - destruct (Hw (cu_end c1) (cu_end c1) t Hbe Hch) as [Hend | [Hk _]]; unfold next_end; lia. }
  destruct (1 <? length pat) eqn:E2.
  - rewrite Hwin. destruct (find_sub pat (substr text ts next_end)) as [pos|] eqn:E3.
    + destruct (find_in_window_some pat text ts next_end pos ltac:(lia) Hnl E3) as (H1 & H2 & H3).
      rewrite Htsl. eexists _, _. split; [reflexivity|].
      split; [intros i [= <-]; split; [lia | assumption]|].
      intros Hw. destruct (Hwide Hw) as [Hts' _]. split; [lia|]. split; [assumption|].
      intros j Hj Hoc. destruct (Nat.lt_ge_cases j ts) as [Hj' | Hj'].
      * apply (Hnone j); try assumption; lia.
      * apply (H3 j); try assumption; try lia.
        destruct (find_sub_some _ _ _ E3) as (_ & Hpre & _).
        rewrite skipn_substr in Hpre by lia. apply prefixb_iff in Hpre. destruct Hpre as [tl Htl].
        assert (Hll : length (substr text (ts + pos) next_end) = length pat + length tl) by (rewrite Htl; apply app_length).
        rewrite substr_length in Hll by lia. lia.
    + pose proof (find_in_window_none pat text ts next_end ltac:(lia) Hnl E3) as Hnone2.
      apply Hrec. intros j Hw Hj Hoc. destruct (Hwide Hw) as [Hts' Hreach].
      pose proof (occurs_end _ _ _ Hoc). destruct (Nat.lt_ge_cases j ts) as [Hj' | Hj'].
      * apply (Hnone j); try assumption; lia.
      * apply (Hnone2 j); try assumption; lia.
  - apply Hrec. intros j _ Hj. apply Hnone; lia.
Qed.
End Find.

Lemma find_str_spec : forall src text pat c,
  serves src text -> placed src text c ->
  exists r c', find_str src pat c = Some (r, c') /\
    (forall i, r = Some i -> cu_off c <= i /\ occurs pat text i) /\
    (wide_chunks src text (length pat - 1) -> first_occurrence pat text (cu_off c) r).
Proof.
  intros src text pat c Hs Hc. destruct pat as [| x pat].
  - simpl. destruct Hc as [_ Hb]. pose proof (is_boundary_le _ _ Hb).
    eexists _, _. split; [reflexivity|].
    assert (Ho : occurs [] text (cu_off c)) by (exists (skipn (cu_off c) text); auto).
    split; [intros i [= <-]; auto|]. intros _. simpl. split; [lia|]. split; [assumption|]. intros; lia.
  - unfold find_str. apply find_str_loop_spec; try assumption; [discriminate |].
    destruct Hs as (_ & Hl & _). rewrite Hl. lia.
Qed.

Lemma find_str_from_spec : forall src text pat off,
  serves src text -> is_boundary text (Nat.min off (length text)) = true ->
  exists r, find_str_from src off pat = Some r /\
    (forall i, r = Some i -> Nat.min off (length text) <= i /\ occurs pat text i) /\
    (wide_chunks src text (length pat - 1) -> first_occurrence pat text (Nat.min off (length text)) r).
Proof.
  intros src text pat off Hs Hb. destruct (cursor_at_placed src text off Hs Hb) as [Hp Ho].
  destruct (find_str_spec src text pat _ Hs Hp) as (r & c' & H1 & H2 & H3).
  rewrite Ho in *. exists r. unfold find_str_from. rewrite H1. auto.
Qed.

Lemma flat_chunk_end : forall s off st t, is_boundary s off = true ->
  flat_chunk_at s off = (st, t) -> st + length t = length s.
Proof.
  intros s off st t Hb H.
  pose proof (is_boundary_le _ _ Hb). destruct (Nat.eq_dec off (length s)) as [-> | Hne].
  - unfold flat_chunk_at in H. rewrite Nat.leb_refl in H. inv H. simpl. lia.
  - rewrite flat_chunk_at_spec in H by (assumption || lia). inv H. rewrite skipn_length. lia.
Qed.

Lemma flat_wide : forall s keep, valid s -> wide_chunks (flat_source s) s keep.
Proof. intros s keep Hv off st t Hb H. left. now apply (flat_chunk_end s off). Qed.

Lemma ascii_boundary : forall s i, ascii s -> i <= length s -> is_boundary s i = true.
Proof.
  intros s i Ha Hi. apply valid_skipn_boundary; [assumption|]. apply valid_ascii.
  unfold ascii in *. rewrite Forall_forall in *. intros x Hx. apply Ha.
  rewrite <- (firstn_skipn i s). apply in_or_app. now right.
Qed.

Lemma ascii_wide : forall r keep, wf_chunked r -> ascii (text_of r) ->
  (forall pre c post, ck_chunks r = pre ++ c :: post -> post <> [] -> keep <= length c) ->
  wide_chunks (chunked_source r) (text_of r) keep.
Proof.
  intros r keep Hwf Ha Hk off st t Hb H. cbn [chunked_source src_chunk_at] in H.
  pose proof (is_boundary_le _ _ Hb). destruct (Nat.eq_dec off (length (text_of r))) as [-> | Hne].
  - destruct (chunk_at_end r _ Hwf (Nat.le_refl _)) as [He _]. rewrite He in H. inv H. left. simpl. lia.
  - assert (Hoff : off < length (text_of r)) by lia. pose proof Hwf as (Hok & _).
    destruct (locate _ _ Hok Hoff) as (pre & c & post & Heq & Hrange).
    rewrite (chunk_at_exact r pre c post off Hwf Heq) in H by lia. inv H.
    assert (Hlen : length (text_of r) = length (concat pre) + (length t + length (concat post))).
    { unfold text_of. rewrite Heq, concat_app, app_length. simpl. now rewrite app_length. }
    destruct post as [| d post]; [left; simpl in Hlen; lia|]. right.
    split; [eapply Hk; [exact Heq | discriminate]|]. apply ascii_boundary; [assumption | lia].
Qed.

(** ** Characters *)

Lemma find_char_spec : forall ch cs, match find_char ch cs with
  | Some i => exists pre post, cs = pre ++ ch :: post /\ i = length (encode pre) /\ ~ In ch pre
  | None => ~ In ch cs
  end.
Proof.
  intros ch cs. induction cs as [| c cs IH]; simpl; [auto|].
  destruct (c =? ch)%Z eqn:E.
  - apply Z.eqb_eq in E. subst. exists [], cs. simpl. auto.
  - apply Z.eqb_neq in E. destruct (find_char ch cs) as [i|].
    + destruct IH as (pre & post & -> & -> & Hn). exists (c :: pre), post. simpl.
      rewrite app_length, encode_char_length. split; [reflexivity|]. split; [reflexivity|].
      intros [H | H]; [congruence | now apply Hn].
    + intros [H | H]; [congruence | now apply IH].
Qed.

(** Characters read from a boundary inside a window are characters of the window. *)
Lemma window_char : forall text a e j b ch cs,
  valid text -> is_boundary text a = true -> is_boundary text e = true -> a <= j < e -> e <= length text ->
  Forall is_scalar cs -> substr text a e = encode cs ->
  is_boundary text j = true -> reads text j b [ch] ->
  exists pre post, cs = pre ++ ch :: post /\ j = a + length (encode pre).
Proof.
  intros text a e j b ch cs Hv Ha He Hj Hel Hs Hw Hbj Hr.
  assert (Hbw : is_boundary (encode cs) (j - a) = true).
  { rewrite <- Hw. unfold substr. rewrite boundary_firstn; [|lia | rewrite skipn_length; lia].
    rewrite <- boundary_skipn by assumption. now replace (a + (j - a)) with j by lia. }
  destruct (boundary_split cs (j - a) Hs Hbw) as (c1 & c2 & -> & Hlen).
  assert (Hw2 : substr text j e = encode c2).
  { replace j with (a + (j - a)) by lia. rewrite <- skipn_substr by lia. rewrite Hw, encode_app, Hlen.
    apply skipn_app_exact. }
  destruct c2 as [| d c2].
  - apply substr_nil_inv in Hw2; lia.
  - exists c1, c2. apply Forall_app in Hs. destruct Hs as [Hs1 Hs2]. apply Forall_inv in Hs2.
    destruct Hr as (Hc & Hrr & Hr). apply Forall_inv in Hc.
    assert (H1 : skipn j text = encode_char d ++ (encode c2 ++ skipn e text)).
    { rewrite (suffix_split text j e) by lia. rewrite Hw2. simpl. now rewrite <- app_assoc. }
    assert (H2 : skipn j text = encode_char ch ++ skipn b text).
    { rewrite (suffix_split text j b) by lia. rewrite Hr. simpl. now rewrite app_nil_r. }
    assert (Hd : decode1 (encode_char d ++ (encode c2 ++ skipn e text)) = decode1 (encode_char ch ++ skipn b text)) by congruence.
    rewrite !decode1_encode_char in Hd by assumption. injection Hd as -> _. split; [reflexivity | lia].
Qed.

Lemma window_read : forall text a e pre ch post, a <= e -> e <= length text ->
  Forall is_scalar (pre ++ ch :: post) -> substr text a e = encode (pre ++ ch :: post) ->
  exists b, reads text (a + length (encode pre)) b [ch] /\ b <= e.
Proof.
  intros text a e pre ch post H1 H2 Hs Hw. rewrite encode_app in Hw. simpl in Hw.
  assert (Hl : length (encode pre) + (char_len ch + length (encode post)) = e - a).
  { rewrite <- (substr_length text a e) by assumption. rewrite Hw, !app_length, encode_char_length. lia. }
  exists (a + length (encode pre) + char_len ch). split; [|lia].
  apply Forall_app in Hs. destruct Hs as [_ Hs]. apply Forall_inv in Hs.
  split; [constructor; [assumption | constructor]|]. split; [lia|].
  assert (Hw2 : substr text (a + length (encode pre)) e = encode_char ch ++ encode post).
  { rewrite <- skipn_substr by lia. rewrite Hw. apply skipn_app_exact. }
  destruct (substr_prefix text (a + length (encode pre)) e (encode_char ch) (encode post)) as [H _]; try assumption; [lia|].
  rewrite encode_char_length in H. rewrite H. simpl. now rewrite app_nil_r.
Qed.

Lemma find_char_loop_spec : forall src text ch, serves src text -> forall fuel c,
  placed src text c -> length text - cu_off c < fuel ->
  exists r, find_char_loop src fuel ch (cu_off c) c = Some r /\ first_char_position ch text (cu_off c) r.
Proof.
  intros src text ch Hs. induction fuel as [| f IH]; intros c Hc Hf; [lia|].
  pose proof Hs as (Hv & Hl & _ & _). cbn [find_char_loop]. rewrite Hl.
  destruct (rest_spec src text c Hs Hc) as (c1 & Hrest & Hc1). rewrite Hrest.
  destruct (ensure_placed src text c Hs Hc) as (Hp & Ho & Hrng & Hlt).
  destruct (ensure_text src text c Hs Hc) as (_ & _ & Hvt & Hle & Hbe). cbn zeta in *. rewrite <- Hc1 in *.
  destruct (valid_chars _ Hvt) as [He Hsc]. symmetry in He.
  assert (Hb : is_boundary text (cu_off c) = true) by (destruct Hc; assumption).
  pose proof (find_char_spec ch (chars (substr text (cu_off c) (cu_end c1)))) as Hfc.
  destruct (find_char ch (chars (substr text (cu_off c) (cu_end c1)))) as [pos|].
  - destruct Hfc as (pre & post & Hcs & -> & Hnin). eexists. split; [reflexivity|]. split; [lia|].
    rewrite Hcs in He, Hsc.
    destruct (window_read text (cu_off c) (cu_end c1) pre ch post (proj2 Hrng) Hle Hsc He) as (b & Hrd & Hbe').
    split; [now exists b|]. intros j b' Hj Hbj Hr.
    pose proof (reads_nonempty _ _ _ _ Hrd) as Hne. apply reads_end in Hrd. simpl in Hrd.
    rewrite app_nil_r, encode_char_length in Hrd. pose proof (char_len_pos ch).
    destruct (window_char text (cu_off c) (cu_end c1) j b' ch (pre ++ ch :: post)) as (pre' & post' & Heq & Hjj);
      try assumption; [lia|].
    (* [pre'] is a proper prefix of [pre], so [ch] is in [pre] *)
    assert (Hpp : length pre' < length pre).
    { destruct (Nat.lt_ge_cases (length pre') (length pre)) as [|Hge]; [assumption|]. exfalso.
      assert (Hpre : pre = firstn (length pre) pre').
      { apply (f_equal (firstn (length pre))) in Heq. rewrite firstn_app_exact in Heq.
        rewrite firstn_app_le in Heq by assumption. exact Heq. }
      assert (length (encode pre) <= length (encode pre')).
      { rewrite <- (firstn_skipn (length pre) pre'), <- Hpre, encode_app, app_length. lia. }
      lia. }
    apply Hnin. apply (f_equal (fun l => nth_error l (length pre'))) in Heq.
    rewrite nth_error_app1 in Heq by assumption. rewrite nth_error_app2, Nat.sub_diag in Heq by lia.
    simpl in Heq. eapply nth_error_In. exact Heq.
  - unfold chunk_end.
    assert (Hp1 : placed src text c1) by exact Hp.
    destruct (ensure_placed src text c1 Hs Hp1) as (Hp2 & Ho2 & Hrng2 & Hlt2). cbn zeta in *.
    assert (Hsame : ensure_chunk src c1 = c1).
    { unfold ensure_chunk. rewrite Hl, Ho. pose proof (is_boundary_le _ _ Hb) as Hbl.
      replace (length text <? cu_off c) with false by lia.
      destruct ((cu_off c <? cu_start c1) || (cu_end c1 <? cu_off c) || ((cu_off c =? cu_end c1) && (cu_off c <? length text))) eqn:E.
      - exfalso. destruct (Nat.lt_ge_cases (cu_off c) (length text)) as [H | H]; [specialize (Hlt H)|]; lia.
      - destruct c1. simpl in *. now subst. }
    rewrite Hsame. 
    assert (Hno : forall j b, cu_off c <= j < cu_end c1 -> is_boundary text j = true -> ~ reads text j b [ch]).
    { intros j b Hj Hbj Hr.
      destruct (window_char text (cu_off c) (cu_end c1) j b ch _ Hv Hb Hbe Hj Hle Hsc He Hbj Hr) as (pre & post & Heq & _).
      apply Hfc. rewrite Heq. apply in_or_app. right. now left. }
    destruct (length text <=? cu_end c1) eqn:E1.
    + eexists. split; [reflexivity|]. intros j b Hj Hbj Hr. pose proof (reads_nonempty _ _ _ _ Hr).
      apply (Hno j b); try assumption. lia.
    + assert (Hlt' : cu_off c < cu_end c1) by (apply Hlt; lia).
      unfold set_position. rewrite Hl. replace (Nat.min (cu_end c1) (length text)) with (cu_end c1) by lia.
      destruct (IH (Cursor (cu_end c1) (cu_start c1) (cu_text c1))) as (r & Hr1 & Hr2).
      { split; [exact (proj1 Hp) | exact Hbe]. }
      { cbn [cu_off]. lia. }
      cbn [cu_off] in Hr1, Hr2. exists r. split; [exact Hr1|].
      destruct r as [i|]; simpl in *.
      * destruct Hr2 as (G1 & G2 & G3). split; [lia|]. split; [assumption|]. intros j b Hj Hbj.
        destruct (Nat.lt_ge_cases j (cu_end c1)); [apply Hno; [lia | assumption] | apply G3; [lia | assumption]].
      * intros j b Hj Hbj.
        destruct (Nat.lt_ge_cases j (cu_end c1)); [apply Hno; [lia | assumption] | apply Hr2; [lia | assumption]].
Qed.

Lemma find_char_from_spec : forall src text ch off,
  serves src text -> off <= length text -> is_boundary text off = true ->
  exists r, find_char_from src off ch = Some r /\ first_char_position ch text off r.
Proof.
  intros src text ch off Hs Hle Hb.
  assert (Hm : Nat.min off (length text) = off) by lia.
  destruct (cursor_at_placed src text off Hs ltac:(now rewrite Hm)) as [Hp Ho]. rewrite Hm in Ho.
  destruct (find_char_loop_spec src text ch Hs (S (src_len src)) (cursor_at src off) Hp) as (r & H1 & H2).
  { destruct Hs as (_ & Hl & _). lia. }
  rewrite Ho in *. now exists r.
Qed.

(** ** Off a character boundary the flat source never gets anywhere *)

Lemma flat_chunk_off_boundary : forall s off, off < length s -> is_boundary s off = false ->
  flat_chunk_at s off = (off, []).
Proof.
  intros s off H Hb. unfold flat_chunk_at, str_get_from.
  replace (length s <=? off) with false by lia. now rewrite Hb, Bool.andb_false_r.
Qed.

Lemma ensure_off_boundary : forall s off, off < length s -> is_boundary s off = false ->
  ensure_chunk (flat_source s) (Cursor off off []) = Cursor off off [].
Proof.
  intros s off H Hb. unfold ensure_chunk, cu_end. cbn [flat_source src_len src_chunk_at cu_off cu_start cu_text].
  replace (length s <? off) with false by lia. rewrite flat_chunk_off_boundary by assumption.
  match goal with |- (if ?x then _ else _) = _ => destruct x end; reflexivity.
Qed.

Lemma cursor_off_boundary : forall s off, off < length s -> is_boundary s off = false ->
  cursor_at (flat_source s) off = Cursor off off [].
Proof.
  intros s off H Hb. unfold cursor_at. cbn [flat_source src_len src_chunk_at].
  replace (Nat.min off (length s)) with off by lia. now rewrite flat_chunk_off_boundary.
Qed.

Lemma scan_stuck : forall s off scan fuel, off < length s -> is_boundary s off = false ->
  scan_loop (flat_source s) scan fuel (cursor_at (flat_source s) off) = None.
Proof.
  intros s off scan fuel H Hb. rewrite cursor_off_boundary by assumption.
  induction fuel as [| f IH]; [reflexivity|].
  cbn [scan_loop]. rewrite ensure_off_boundary by assumption. cbn [cu_off cu_start cu_text length].
  replace (off - off <? 0) with false by lia. cbn [flat_source src_len src_chunk_at].
  replace (length s <=? off) with false by lia. rewrite flat_chunk_off_boundary by assumption. exact IH.
Qed.

Lemma find_char_stuck : forall s off ch fuel base, off < length s -> is_boundary s off = false ->
  find_char_loop (flat_source s) fuel ch base (cursor_at (flat_source s) off) = None.
Proof.
  intros s off ch fuel base H Hb. rewrite cursor_off_boundary by assumption. revert base.
  induction fuel as [| f IH]; intros base; [reflexivity|].
  cbn [find_char_loop]. unfold rest, chunk_end. rewrite ensure_off_boundary by assumption.
  cbn [cu_off cu_start cu_text]. unfold slice_from. rewrite Nat.leb_refl. cbn [chars length chars_fuel find_char].
  rewrite ensure_off_boundary by assumption.
  unfold cu_end. cbn [cu_off cu_start cu_text length]. rewrite Nat.add_0_r. cbn [flat_source src_len].
  replace (length s <=? off) with false by lia. unfold set_position. cbn [flat_source src_len cu_start cu_text].
  replace (Nat.min off (length s)) with off by lia. apply IH.
Qed.

Lemma find_str_stuck : forall s off pat fuel, off < length s -> is_boundary s off = false ->
  pat <> [] ->
  find_str_loop (flat_source s) fuel pat off (cursor_at (flat_source s) off) = None.
Proof.
  intros s off pat fuel H Hb Hp. rewrite cursor_off_boundary by assumption.
  induction fuel as [| f IH]; [reflexivity|].
  cbn [find_str_loop cu_start cu_text]. rewrite ensure_off_boundary by assumption.
  cbn [flat_source src_len src_chunk_at cu_off cu_start cu_text]. unfold slice_from.
  rewrite Nat.leb_refl. replace (length s <=? off) with false by lia.
  assert (Hf : find_sub pat [] = None) by (destruct pat; [now destruct Hp | reflexivity]).
  rewrite Hf. unfold cu_end. cbn [cu_off cu_start cu_text length]. rewrite Nat.add_0_r.
  replace (length s <=? off) with false by lia. rewrite flat_chunk_off_boundary by assumption.
  destruct (1 <? length pat); [|exact IH].
  unfold str_get_from. cbn [length Nat.sub Nat.leb is_boundary andb skipn app snd].
  rewrite Hf. exact IH.
Qed.

Lemma find_str_flat_position : forall s pat off r c',
  valid s -> is_boundary s (Nat.min off (length s)) = true ->
  find_str (flat_source s) pat (cursor_at (flat_source s) off) = Some (r, c') ->
  cu_off c' = cu_off (cursor_at (flat_source s) off).
Proof.
  intros s pat off r c' Hv Hb H. pose proof (flat_serves s Hv) as Hs.
  destruct (cursor_at_placed _ s off Hs Hb) as [Hp Ho]. unfold find_str in H.
  destruct pat as [| x pat]; [now injection H as _ <-|].
  set (c := cursor_at (flat_source s) off) in *.
  cbn [find_str_loop] in H. cbn [flat_source src_len src_chunk_at] in H. 
  destruct (length s <=? cu_off c) eqn:E; [now injection H as _ <-|].
  assert (Hc : Cursor (cu_off c) (cu_start c) (cu_text c) = c) by now destruct c.
  rewrite Hc in H.
  destruct (ensure_placed _ s c Hs Hp) as (Hp1 & Ho1 & Hr1 & Hlt). cbn zeta in *.
  assert (Hend : cu_end (ensure_chunk (flat_source s) c) = length s).
  { destruct Hp1 as ((_ & _ & (o & Hob & Hch)) & _).
    exact (flat_chunk_end s o _ _ Hob Hch). }
  change (Source (length s) (flat_chunk_at s)) with (flat_source s) in H.
  destruct (find_sub (x :: pat) _) in H; [injection H as _ <-; exact Ho1|].
  rewrite Hend, Nat.leb_refl in H. injection H as _ <-. exact Ho1.
Qed.
