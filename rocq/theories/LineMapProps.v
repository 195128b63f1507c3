(** Theorems about line and column positions (C37-C39). *)
From Verif Require Import Base Utf8 Utf8Facts RopeModel RopeSpec RopeProofs CursorModel CursorSpec CursorProofs
  LineMapModel LineMapSpec LineMapProofs.
From Coq Require Import Sorting.Sorted.

(** Both kinds of sources are covered. *)
Theorem readers_read : (forall s, valid s -> reads (flat_reader s) s) /\
  (forall r, wf_chunked r -> reads (chunked_reader r) (text_of r)).
Proof. split; [exact flat_reads|exact chunked_reads]. Qed.
Print Assumptions readers_read.

(** The text of line [i] according to the map. *)
Definition line_text (m : line_map) (text : str) (i : nat) : str :=
  match line_start m i, line_end m i with Some a, Some b => substr text a b | _, _ => [] end.

Lemma lines_concat text : forall d k, length (starts text) = k + d ->
  concat (map (line_text (map_of text) text) (seq k d)) =
  match nth_error (starts text) k with Some s => skipn s text | None => [] end.
Proof.
  induction d as [|d IH]; intros k Hk; cbn [seq map concat].
  - assert (E : nth_error (starts text) k = None) by (apply nth_error_None; lia). now rewrite E.
  - rewrite IH by lia. destruct (nth_error (starts text) k) as [s|] eqn:Es; [|apply nth_error_None in Es; lia].
    unfold line_text, line_start. cbn [lm_starts map_of]. rewrite Es.
    destruct (line_end_bounds text k s Es) as (e & -> & Hb & _ & Hn).
    replace (k + 1) with (S k) in Hn by lia.
    destruct (nth_error (starts text) (S k)) as [n|].
    + destruct Hn as [-> Hn]. symmetry. apply skipn_firstn_split. lia.
    + subst e. rewrite app_nil_r. unfold substr. apply firstn_all2. rewrite skipn_length. lia.
Qed.

(** C38 *)
Theorem lines_partition r text : reads r text -> exists m, from_source r = Some m /\
  StronglySorted lt (lm_starts m) /\ (forall x, In x (lm_starts m) <-> begins_line text x) /\
  line_count m = S (count_occ Z.eq_dec text 10%Z) /\
  concat (map (line_text m text) (seq 0 (line_count m))) = text.
Proof.
  intros H. exists (map_of text). split; [now apply from_source_spec|].
  split; [apply starts_sorted|]. split; [apply starts_in|].
  split; [unfold line_count, starts; cbn [map_of lm_starts length starts]; now rewrite after_count|].
  rewrite lines_concat by reflexivity. reflexivity.
Qed.
Print Assumptions lines_partition.

(** C38: each line ends where the next one starts, right after its line feed, the last one at the end. *)
Theorem line_ends r text m i s : reads r text -> from_source r = Some m -> line_start m i = Some s ->
  exists e, line_end m i = Some e /\ s <= e <= length text /\
    (i + 1 < line_count m -> line_start m (i + 1) = Some e /\ nth_error text (e - 1) = Some 10%Z) /\
    (line_count m <= i + 1 -> e = length text).
Proof.
  intros H Hm Hs. rewrite (from_source_spec r text H) in Hm. injection Hm as <-.
  destruct (line_end_bounds text i s Hs) as (e & He & Hb & _ & Hn). exists e. split; [exact He|]. split; [assumption|].
  unfold line_count, line_start in *. cbn [lm_starts map_of] in *.
  destruct (nth_error (starts text) (i + 1)) as [n|] eqn:En.
  - destruct Hn as [-> Hlt]. split.
    + intros _. split; [reflexivity|].
      assert (Hin : begins_line text n) by (apply starts_in; eapply nth_error_In; eassumption).
      destruct Hin as [->|(j & -> & Hj)]; [lia|]. simpl. now rewrite Nat.sub_0_r.
    + intros Hge. apply nth_error_None in Hge. congruence.
  - split; [intros Hlt; apply nth_error_Some in Hlt; congruence|auto].
Qed.
Print Assumptions line_ends.

Lemma on_line_found text o : o <= length text -> exists s,
  nth_error (starts text) (feeds_before text o) = Some s /\ on_line text o (feeds_before text o) s.
Proof.
  intros Ho. destruct (starts_split text o Ho) as (pre & s & post & E & Hl & H1 & H2 & H3).
  exists s. split; [rewrite E, <- Hl, nth_error_app2, Nat.sub_diag by lia; reflexivity|].
  split; [reflexivity|]. split; [assumption|]. split; [apply starts_in; rewrite E; apply in_elt|].
  intros i Hi Hn. assert (Hin : In (S i) (starts text)) by (apply starts_in; right; exists i; auto).
  rewrite E in Hin. apply in_app_iff in Hin. rewrite Forall_forall in H1, H3.
  destruct Hin as [Hin|[Hin|Hin]]; [apply H1 in Hin|subst s|apply H3 in Hin]; lia.
Qed.

(** What [offset_to_line_col] computes, for an offset on a character boundary. *)
Lemma to_line_col_spec r text o : reads r text -> is_boundary text o = true -> exists s,
  nth_error (starts text) (feeds_before text o) = Some s /\ on_line text o (feeds_before text o) s /\
  offset_to_line_col (map_of text) r o =
    Some (u32 (feeds_before text o), u32 (utf16_len (chars (substr text s o)))).
Proof.
  intros [Hsv Hr] Hb. assert (Ho := is_boundary_le _ _ Hb).
  destruct (on_line_found text o Ho) as (s & Es & Hon).
  destruct (find_line text o Ho) as (s' & Es' & Hle & Hf & _).
  assert (s' = s) by congruence. subst s'.
  exists s. split; [assumption|]. split; [assumption|].
  unfold offset_to_line_col. cbn [lm_starts lm_len map_of]. rewrite Nat.min_l by assumption.
  rewrite Hf, Es.
  rewrite Hr by (assumption || (apply begins_boundary; [apply Hsv|apply Hon])).
  reflexivity.
Qed.

Lemma utf16_le_bytes cs : Forall is_scalar cs -> utf16_len cs <= length (encode cs).
Proof.
  induction 1 as [|c cs Hc _ IH]; [unfold utf16_len; simpl; lia|]. rewrite utf16_cons. simpl. rewrite app_length, encode_char_length.
  assert (Hp := char_len_pos c). destruct (c <? 65536)%Z eqn:E; [lia|].
  unfold char_len. destruct (c <? 128)%Z eqn:E1; [lia|]. destruct (c <? 2048)%Z eqn:E2; [lia|].
  rewrite E. lia.
Qed.

(** C38/C37: the position of an offset is its line (counting line feeds) and the UTF-16 length of the
    text between the start of that line and the offset; and converting back gives the offset.
    Missing: texts of 4 GiB and more, see below. *)
Theorem line_col_round_trip_partial r text m o : reads r text -> from_source r = Some m ->
  (Z.of_nat (length text) < 2 ^ 32)%Z -> is_boundary text o = true ->
  exists l c s, offset_to_line_col m r o = Some (l, c) /\ on_line text o l s /\
    line_start m l = Some s /\ c = utf16_len (chars (substr text s o)) /\
    line_col_to_offset m r l c = o.
Proof.
  intros H Hm Hlen Hb. rewrite (from_source_spec r text H) in Hm. injection Hm as <-.
  change (LineMap (starts text) (length text)) with (map_of text).
  assert (Hv : valid text) by apply H. assert (Ho := is_boundary_le _ _ Hb).
  destruct (to_line_col_spec r text o H Hb) as (s & Es & Hon & Hto).
  assert (Hso : s <= o) by apply Hon.
  assert (Hbs : is_boundary text s = true) by (apply begins_boundary; [assumption|apply Hon]).
  assert (Hfb : feeds_before text o <= length text).
  { unfold feeds_before. rewrite <- (after_count _ 0).
    assert (Hx : forall t k, length (after k t) <= length t).
    { induction t as [|b t IHt]; intros k; simpl; [lia|]. rewrite app_length. specialize (IHt (S k)).
      destruct (b =? 10)%Z; simpl; lia. }
    specialize (Hx (firstn o text) 0). rewrite firstn_length_le in Hx by assumption. lia. }
  assert (Hvs := valid_substr text s o Hv Hso Hbs Hb).
  destruct (valid_chars _ Hvs) as [Hcs1 Hcs2].
  assert (H16 : utf16_len (chars (substr text s o)) <= length text).
  { assert (Hx := utf16_le_bytes _ Hcs2). rewrite Hcs1 in Hx. rewrite substr_length in Hx by assumption. lia. }
  rewrite !u32_small in Hto by lia.
  exists (feeds_before text o), (utf16_len (chars (substr text s o))), s.
  split; [exact Hto|]. split; [exact Hon|]. split; [exact Es|]. split; [reflexivity|].
  unfold line_col_to_offset, line_start. cbn [lm_starts map_of lm_len]. rewrite Es.
  destruct (line_end_bounds text _ s Es) as (e & He & Hse & Hbe & Hn). 
  change (LineMap (starts text) (length text)) with (map_of text) in He. rewrite He.
  assert (Hoe : o <= e).
  { destruct (find_line text o Ho) as (_ & _ & _ & _ & Hnext).
    destruct (nth_error (starts text) (feeds_before text o + 1)) as [n|]; [|subst e; assumption].
    destruct Hn as [-> _]. specialize (Hnext n eq_refl). lia. }
  assert (Hbe' : is_boundary text e = true).
  { destruct Hbe as [->|Hbe]; [apply is_boundary_length|now apply begins_boundary]. }
  destruct H as [Hsv Hr]. rewrite (Hr s e) by (assumption || lia).
  rewrite (substr_split text s o e) by assumption.
  assert (Hv2 := valid_substr text o e Hv Hoe Hb Hbe'). destruct (valid_chars _ Hv2) as [Hd1 Hd2].
  assert (Hch : chars (substr text s o ++ substr text o e) = chars (substr text s o) ++ chars (substr text o e)).
  { rewrite <- Hcs1 at 1. rewrite <- Hd1 at 1. rewrite <- encode_app. apply chars_encode. apply Forall_app. now split. }
  rewrite Hch. destruct (chars (substr text o e)) as [|c c2] eqn:Ed.
  - assert (Heq : o = e).
    { simpl in Hd1. apply (f_equal (@length Z)) in Hd1. rewrite substr_length in Hd1 by lia. simpl in Hd1. lia. }
    subst e. rewrite app_nil_r.
    destruct (column_loop _ _ _ _) as [b|] eqn:Ec; [|lia].
    apply column_loop_found in Ec. destruct Ec as (c1 & d & c3 & E1 & E2 & E3 & _).
    exfalso. rewrite E1 in E3. rewrite utf16_app, utf16_cons in E3. assert (Hp := utf16_pos d). lia.
  - rewrite column_loop_exact. rewrite Hcs1, substr_length by assumption. lia.
Qed.
Print Assumptions line_col_round_trip_partial.

(** A line of 2^32 characters: the column of its end is reported as 0. *)
Lemma scalar_a n : Forall is_scalar (repeat 97%Z n).
Proof. apply Forall_forall. intros x Hx. apply repeat_spec in Hx. subst. left. lia. Qed.
Lemma encode_a n : encode (repeat 97%Z n) = repeat 97%Z n.
Proof. apply encode_ascii. apply Forall_forall. intros x Hx. apply repeat_spec in Hx. subst. lia. Qed.
Lemma utf16_a n : utf16_len (repeat 97%Z n) = n.
Proof. induction n; [reflexivity|]. simpl repeat. rewrite utf16_cons, IHn. reflexivity. Qed.

Theorem line_col_round_trip_refuted : exists text m o l c,
  valid text /\ from_source (flat_reader text) = Some m /\ is_boundary text o = true /\
  offset_to_line_col m (flat_reader text) o = Some (l, c) /\ line_col_to_offset m (flat_reader text) l c <> o.
Proof.
  remember (Z.to_nat (2 ^ 32)) as n eqn:En. assert (Hn : Z.of_nat n = (2 ^ 32)%Z) by lia. clear En.
  set (text := repeat 97%Z n).
  assert (Hv : valid text) by (exists text; split; [apply scalar_a|symmetry; apply encode_a]).
  assert (Hr := flat_reads text Hv).
  assert (Hlen : length text = n) by apply repeat_length.
  assert (Hb : is_boundary text n = true) by (rewrite <- Hlen; apply is_boundary_length).
  assert (Hnf : forall i, nth_error text i <> Some 10%Z).
  { intros i Hi. apply nth_error_In, repeat_spec in Hi. discriminate. }
  assert (Hfb : feeds_before text n = 0).
  { unfold feeds_before. apply count_occ_not_In. intros Hi. rewrite <- Hlen, firstn_all in Hi. apply repeat_spec in Hi. discriminate. }
  destruct (to_line_col_spec _ text n Hr Hb) as (s & Es & Hon & Hto).
  rewrite Hfb in *. simpl in Es. injection Es as <-.
  exists text, (map_of text), n. do 2 eexists. split; [assumption|]. split; [now apply from_source_spec|].
  split; [assumption|]. split; [exact Hto|].
  assert (Ec : chars (substr text 0 n) = text).
  { rewrite <- Hlen, substr_full. unfold text. rewrite <- (encode_a n) at 1. apply chars_encode, scalar_a. }
  rewrite Ec. unfold text at 3. rewrite utf16_a.
  replace (u32 n) with 0 by (unfold u32; replace (N.of_nat n) with 4294967296%N by lia; reflexivity).
  change (u32 0) with 0. unfold line_col_to_offset. cbn [line_start lm_starts map_of starts nth_error lm_len].
  destruct (line_end_bounds text 0 0 eq_refl) as (e & He & _). rewrite He.
  assert (Hee : e = n).
  { destruct (line_end_bounds text 0 0 eq_refl) as (e' & He' & _ & _ & Hx). assert (e' = e) by congruence. subst e'.
    destruct (nth_error (starts text) (0 + 1)) as [k|] eqn:Ek; [|now rewrite Hx].
    exfalso. apply nth_error_In in Ek. apply starts_in in Ek. destruct Hx as [-> Hx].
    destruct Ek as [->|(i & _ & Hi)]; [lia|]. now apply (Hnf i). }
  subst e. destruct Hr as [_ Hr]. rewrite (Hr 0 n) by (reflexivity || assumption || lia).
  rewrite Ec. assert (Hs : exists k, n = S k) by (exists (n - 1); lia). destruct Hs as [k ->].
  unfold text. cbn [repeat column_loop Nat.leb]. rewrite repeat_length || idtac. cbn [repeat length]. lia.
Qed.
Print Assumptions line_col_round_trip_refuted.

(** C39, what holds: let [content] be the characters of the line without its line feed.  A column inside
    the content gives the first character boundary at or after it; on the last line a column past the
    end gives the end of the text.  Missing: columns past the end of the other lines. *)
Theorem column_position_partial r text m i s e col content feed : reads r text -> from_source r = Some m ->
  line_start m i = Some s -> line_end m i = Some e ->
  substr text s e = encode (content ++ feed) -> Forall is_scalar (content ++ feed) ->
  (feed = [10%Z] \/ (feed = [] /\ e = length text)) ->
  (col <= utf16_len content -> exists c1 c2, content = c1 ++ c2 /\ line_col_to_offset m r i col = s + length (encode c1) /\
      col <= utf16_len c1 /\ (c1 <> [] -> utf16_len (removelast c1) < col)) /\
  (feed = [] -> utf16_len content <= col -> line_col_to_offset m r i col = length text).
Proof.
  intros H Hm Hs He Ht Hsc Hfeed. rewrite (from_source_spec r text H) in Hm. injection Hm as <-.
  change (LineMap (starts text) (length text)) with (map_of text) in *.
  assert (Hv : valid text) by apply H.
  destruct (line_end_bounds text i s Hs) as (e' & He' & Hse & Hbe & _).
  assert (e' = e) by congruence. subst e'.
  assert (Hbs : is_boundary text s = true) by (apply begins_boundary; [assumption|apply starts_in; eapply nth_error_In; exact Hs]).
  assert (Hbe' : is_boundary text e = true).
  { destruct Hbe as [->|Hbe]; [apply is_boundary_length|now apply begins_boundary]. }
  assert (Hlen : e = s + length (encode (content ++ feed))).
  { rewrite <- Ht, substr_length; lia. }
  assert (Hval : line_col_to_offset (map_of text) r i col =
    match column_loop (content ++ feed) 0 0 col with Some b => Nat.min (s + b) (length text) | None => e end).
  { unfold line_col_to_offset. rewrite Hs, He. destruct H as [_ Hr]. rewrite Hr by (assumption || lia).
    rewrite Ht, chars_encode by assumption. cbn [lm_len map_of].
    destruct (column_loop _ _ _ _); [reflexivity|lia]. }
  rewrite Hval. rewrite encode_app, app_length in Hlen. split.
  - intros Hcol. destruct (column_loop (content ++ feed) 0 0 col) as [b|] eqn:Ec.
    + apply column_loop_found in Ec. destruct Ec as (c1 & d & c3 & E1 & E2 & E3 & E4).
      simpl in E2, E3, E4. subst b.
      assert (Hpre : exists c2, content = c1 ++ c2).
      { assert (Hl : length c1 <= length content).
        { assert (L := f_equal (@length Z) E1). rewrite !app_length in L. simpl in L. destruct Hfeed as [->|[-> _]]; simpl in L; lia. }
        exists (skipn (length c1) content). rewrite <- (firstn_skipn (length c1) content) at 1. f_equal.
        assert (F := f_equal (firstn (length c1)) E1). rewrite firstn_app_exact in F. rewrite firstn_app_le in F by assumption. exact F. }
      destruct Hpre as [c2 ->]. exists c1, c2. split; [reflexivity|].
      rewrite encode_app, app_length in Hlen. split; [lia|]. split; assumption.
    + exists content, []. rewrite app_nil_r. split; [reflexivity|].
      assert (Ec' := proj1 (column_loop_none _ 0 0 col) Ec). clear Ec. rename Ec' into Ec.
      destruct Hfeed as [->|[-> ->]].
      * exfalso. assert (Hx : content ++ [10%Z] <> []) by (destruct content; discriminate). specialize (Ec Hx).
        rewrite removelast_last in Ec. simpl in Ec. lia.
      * rewrite app_nil_r in Ec. simpl in Hlen. simpl in Ec. split; [lia|]. split; assumption.
  - intros -> Hcol. destruct Hfeed as [Hf|[_ ->]]; [discriminate|]. simpl in Hlen. rewrite app_nil_r in *.
    destruct (column_loop content 0 0 col) as [b|] eqn:Ec; [|reflexivity].
    apply column_loop_found in Ec. destruct Ec as (c1 & d & c3 & E1 & E2 & E3 & E4).
    exfalso. subst content. rewrite utf16_app, utf16_cons in Hcol. assert (Hp := utf16_pos d). lia.
Qed.
Print Assumptions column_position_partial.

(** C39: a column past the end of a line lands on the next line. *)
Theorem column_clamps_to_line_refuted : exists text m line col s n,
  valid text /\ from_source (flat_reader text) = Some m /\ line_start m line = Some s /\ line_start m (S line) = Some n /\ line_col_to_offset m (flat_reader text) line col = n.
Proof.
  exists (lit "ab" ++ [10%Z] ++ lit "cd"). eexists. exists 0, 9. do 2 eexists.
  split; [apply validb_valid; vm_compute; reflexivity|]. split; [vm_compute; reflexivity|].
  split; [vm_compute; reflexivity|]. split; vm_compute; reflexivity.
Qed.
Print Assumptions column_clamps_to_line_refuted.

(** The carriage return of a CRLF line break counts as a column of the line. *)
Example crlf_column : exists m, from_source (flat_reader [97; 13; 10; 98]%Z) = Some m /\ line_col_to_offset m (flat_reader [97; 13; 10; 98]%Z) 0 2 = 2.
Proof. eexists. split; vm_compute; reflexivity. Qed.

(** Case: three lines, one with characters outside the basic plane. *)
Definition sample : str := encode [97; 0x1F600; 98; 10; 233; 10]%Z.
Example sample_positions : exists m, from_source (flat_reader sample) = Some m /\ lm_starts m = [0; 7; 10] /\ offset_to_line_col m (flat_reader sample) 5 = Some (0, 3) /\ line_col_to_offset m (flat_reader sample) 0 3 = 5 /\ offset_to_line_col m (flat_reader sample) 9 = Some (1, 1) /\ (* inside a surrogate pair: rounded up *)
  line_col_to_offset m (flat_reader sample) 0 2 = 5.
Proof. eexists. repeat split; vm_compute; reflexivity. Qed.
Example sample_column : substr sample 0 7 = encode ([97; 0x1F600; 98]%Z ++ [10]%Z) /\ Forall is_scalar ([97; 0x1F600; 98]%Z ++ [10]%Z).
Proof. split; [vm_compute; reflexivity|]. repeat constructor; unfold is_scalar; lia. Qed.
