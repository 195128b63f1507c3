From Verif Require Import Base Utf8 Utf8Facts RopeModel RopeSpec RopeProofs CursorModel CursorSpec CursorProofs LineMapModel LineMapSpec.
From Coq Require Import Sorting.Sorted.

Lemma u32_small n : (Z.of_nat n < 2 ^ 32)%Z -> u32 n = n.
Proof. intros H. unfold u32. rewrite N.mod_small by lia. lia. Qed.

Lemma flat_reads s : valid s -> reads (flat_reader s) s.
Proof.
  intros Hv. split; [now apply flat_serves|]. intros a b Hab Hb Ha Hbb. simpl.
  unfold flat_text_in, str_get. rewrite Ha, Hbb.
  destruct (a <=? b) eqn:E1; [|lia]. destruct (b <=? length s) eqn:E2; [|lia]. reflexivity.
Qed.

Lemma chunked_reads r : wf_chunked r -> reads (chunked_reader r) (text_of r).
Proof.
  intros Hw. split; [now apply chunked_serves|]. intros a b Hab Hb Ha Hbb. simpl.
  rewrite text_in_chunks_spec; [reflexivity|..]; assumption.
Qed.

(** Line starts after the feeds of a suffix. *)
Fixpoint after (offset : nat) (text : str) : list nat :=
  match text with
  | [] => []
  | b :: rest => (if (b =? 10)%Z then [S offset] else []) ++ after (S offset) rest
  end.
Lemma feeds_after len text : forall offset, offset + length text <= len -> feeds len offset text = after offset text.
Proof.
  induction text as [|b text IH]; intros offset H; simpl in *; [reflexivity|].
  rewrite IH by lia. destruct (b =? 10)%Z; simpl; [|reflexivity].
  destruct (offset + 1 <=? len) eqn:E; [|lia]. simpl. f_equal. lia.
Qed.
Lemma after_app a b : forall o, after o (a ++ b) = after o a ++ after (o + length a) b.
Proof.
  induction a as [|x a IH]; intros o; simpl; [now rewrite Nat.add_0_r|].
  rewrite IH, <- app_assoc. do 3 f_equal. lia.
Qed.
Lemma after_in text : forall o x, In x (after o text) <-> exists i, x = S (o + i) /\ nth_error text i = Some 10%Z.
Proof.
  induction text as [|b text IH]; intros o x; simpl.
  - split; [intros []|]. intros (i & _ & H). destruct i; discriminate.
  - rewrite in_app_iff, IH. split.
    + intros [H|(i & -> & Hi)].
      * destruct (b =? 10)%Z eqn:E; [|destruct H]. destruct H as [<-|[]]. exists 0. split; [lia|].
        simpl. apply Z.eqb_eq in E. now subst.
      * exists (S i). split; [lia|assumption].
    + intros ([|i] & -> & Hi); simpl in Hi.
      * left. injection Hi as ->. simpl. left. lia.
      * right. exists i. split; [lia|assumption].
Qed.
Lemma after_sorted text : forall o, StronglySorted lt (after o text) /\ Forall (fun x => o < x) (after o text).
Proof.
  induction text as [|b text IH]; intros o; simpl; [split; constructor|].
  destruct (IH (S o)) as [H1 H2].
  assert (H3 : Forall (fun x => o < x) (after (S o) text)) by (eapply Forall_impl; [|exact H2]; simpl; intros; lia).
  destruct (b =? 10)%Z; simpl; [|split; assumption].
  split; constructor; try assumption. lia.
Qed.

Lemma starts_loop_spec r text : reads r text -> forall fuel offset,
  is_boundary text offset = true -> length text - offset < fuel ->
  starts_loop fuel r offset = Some (after offset (skipn offset text)).
Proof.
  intros [Hs _]. assert (Hs' := Hs). destruct Hs' as (Hv & Hlen & Hch & _).
  induction fuel as [|f IH]; intros offset Hb Hf; [lia|]. cbn [starts_loop]. rewrite Hlen.
  destruct (offset <? length text) eqn:E.
  - apply Nat.ltb_lt in E. destruct (Hch offset E Hb) as (st & t & Ec & Hd & Hin). rewrite Ec.
    destruct Hd as ((Hle & Ht & Hb1 & Hb2) & _).
    rewrite IH by (assumption || lia).
    assert (Hsl : slice_from st t offset = substr text offset (st + length t)).
    { unfold slice_from. destruct (offset <=? st) eqn:Eo.
      - apply Nat.leb_le in Eo. assert (offset = st) by lia. subst offset. assumption.
      - apply Nat.leb_gt in Eo. unfold str_get_from.
        assert (Hbt : is_boundary t (offset - st) = true).
        { rewrite Ht. unfold substr. rewrite boundary_firstn.
          - rewrite <- boundary_skipn by assumption. now replace (st + (offset - st)) with offset by lia.
          - lia.
          - rewrite skipn_length. lia. }
        destruct (offset - st <=? length t) eqn:E2; [|lia]. rewrite Hbt. simpl.
        rewrite Ht at 1. rewrite (substr_split text st offset) by lia.
        rewrite skipn_app_exact'; [reflexivity|]. rewrite substr_length; lia. }
    rewrite Hsl. rewrite feeds_after by (rewrite substr_length; lia).
    f_equal. rewrite (skipn_firstn_split _ offset (st + length t) text) by lia.
    fold (substr text offset (st + length t)). rewrite after_app. rewrite substr_length by lia.
    do 2 f_equal. lia.
  - apply Nat.ltb_ge in E. rewrite skipn_all2 by lia. reflexivity.
Qed.

Definition starts (text : str) : list nat := 0 :: after 0 text.
Lemma from_source_spec r text : reads r text -> from_source r = Some (LineMap (starts text) (length text)).
Proof.
  intros H. unfold from_source. assert (Hl : src_len (rd_src r) = length text) by apply H.
  rewrite (starts_loop_spec r text H); [|reflexivity|lia]. simpl. now rewrite Hl.
Qed.
Lemma starts_in text x : In x (starts text) <-> begins_line text x.
Proof.
  unfold starts, begins_line. simpl. rewrite after_in. split.
  - intros [<-|(i & -> & H)]; [now left|right]. exists i. auto.
  - intros [->|(i & -> & H)]; [now left|right]. exists i. auto.
Qed.
Lemma starts_sorted text : StronglySorted lt (starts text).
Proof. unfold starts. destruct (after_sorted text 0). now constructor. Qed.
Lemma starts_le text : Forall (fun x => x <= length text) (starts text).
Proof.
  apply Forall_forall. intros x Hx. apply starts_in in Hx. destruct Hx as [->|(i & -> & H)]; [lia|].
  apply nth_error_Some. congruence.
Qed.

(** The number of line feeds before [o] is the index of the line. *)
Lemma after_count text : forall o, length (after o text) = count_occ Z.eq_dec text 10%Z.
Proof.
  induction text as [|b text IH]; intros o; simpl; [reflexivity|]. rewrite app_length, IH.
  destruct (b =? 10)%Z eqn:E; destruct (Z.eq_dec b 10); simpl; lia.
Qed.

Lemma bsearch_from_split pre : forall i x post, Forall (fun y => y < x) pre -> Forall (fun y => x < y) post ->
  bsearch_from i (pre ++ post) x = Missing (i + length pre) /\
  bsearch_from i (pre ++ x :: post) x = Found (i + length pre).
Proof.
  induction pre as [|y pre IH]; intros i x post H1 H2; simpl.
  - rewrite Nat.eqb_refl, Nat.add_0_r. split; [|reflexivity]. destruct post as [|z post]; [reflexivity|].
    inversion H2; subst. simpl. destruct (z =? x) eqn:E; [lia|]. destruct (z <? x) eqn:E2; [lia|reflexivity].
  - inversion H1; subst. destruct (y =? x) eqn:E; [lia|]. destruct (y <? x) eqn:E2; [|lia].
    destruct (IH (S i) x post H4 H2) as [-> ->]. split; f_equal; lia.
Qed.

(** The starts up to [o] come first. *)
Lemma starts_split text o : o <= length text -> exists pre s post,
  starts text = pre ++ s :: post /\ length pre = feeds_before text o /\
  Forall (fun y => y < s) pre /\ s <= o /\ Forall (fun y => o < y) post.
Proof.
  intros Ho. unfold starts.
  assert (E : after 0 text = after 0 (firstn o text) ++ after o (skipn o text)).
  { rewrite <- (firstn_skipn o text) at 1. rewrite after_app, firstn_length_le by assumption. reflexivity. }
  assert (Hsorted := starts_sorted text). unfold starts in Hsorted. rewrite E in *.
  assert (Hle : Forall (fun y => y <= o) (0 :: after 0 (firstn o text))).
  { constructor; [lia|]. apply Forall_forall. intros x Hx. apply after_in in Hx. destruct Hx as (i & -> & Hi).
    assert (i < length (firstn o text)) by (apply nth_error_Some; congruence). rewrite firstn_length_le in H by assumption. lia. }
  destruct (after_sorted (skipn o text) o) as [_ Hgt].
  destruct (exists_last (l := 0 :: after 0 (firstn o text))) as (pre & s & Ep); [discriminate|].
  exists pre, s, (after o (skipn o text)).
  split; [rewrite app_comm_cons, Ep, <- app_assoc; reflexivity|].
  split.
  { unfold feeds_before. rewrite <- (after_count _ 0). apply (f_equal (@length nat)) in Ep.
    rewrite app_length in Ep. simpl in Ep. lia. }
  split.
  { rewrite app_comm_cons, Ep, <- app_assoc in Hsorted. clear -Hsorted.
    induction pre as [|p pre IH]; [constructor|]. simpl in Hsorted. inversion Hsorted; subst.
    constructor; [|auto]. rewrite Forall_forall in H2. apply H2. apply in_elt. }
  split; [|assumption]. rewrite Forall_forall in Hle. apply Hle. rewrite Ep. apply in_elt.
Qed.

Lemma find_line text o : o <= length text -> exists s,
  nth_error (starts text) (feeds_before text o) = Some s /\ s <= o /\
  match bsearch (starts text) o with Found i => i | Missing 0 => 0 | Missing (S i) => i end = feeds_before text o /\
  (forall n, nth_error (starts text) (feeds_before text o + 1) = Some n -> o < n).
Proof.
  intros Ho. destruct (starts_split text o Ho) as (pre & s & post & E & Hl & H1 & H2 & H3).
  exists s. rewrite <- Hl, E.
  split; [rewrite nth_error_app2, Nat.sub_diag by lia; reflexivity|]. split; [assumption|]. split.
  - unfold bsearch. destruct (Nat.eq_dec s o) as [->|Hn].
    + destruct (bsearch_from_split pre 0 o post H1 H3) as [_ ->]. reflexivity.
    + replace (pre ++ s :: post) with ((pre ++ [s]) ++ post) by (rewrite <- app_assoc; reflexivity).
      destruct (bsearch_from_split (pre ++ [s]) 0 o post) as [-> _]; [|assumption|].
      * apply Forall_app. split; [eapply Forall_impl; [|exact H1]; simpl; intros; lia|]. constructor; [lia|constructor].
      * rewrite app_length. simpl. replace (length pre + 1) with (S (length pre)) by lia. reflexivity.
  - intros n Hn. rewrite nth_error_app2 in Hn by lia. replace (length pre + 1 - length pre) with 1 in Hn by lia.
    simpl in Hn. rewrite Forall_forall in H3. apply H3. apply (nth_error_In _ 0).
    destruct post; [discriminate|assumption].
Qed.

Lemma begins_boundary text x : valid text -> begins_line text x -> is_boundary text x = true.
Proof.
  intros Hv [->|(i & -> & H)]; [reflexivity|].
  assert (Hi : i < length text) by (apply nth_error_Some; congruence).
  destruct Hv as (cs & Hs & ->).
  (* the line feed is a character of its own *)
  assert (Hb : is_boundary (encode cs) i = true).
  { unfold is_boundary. destruct i; [reflexivity|]. rewrite H. reflexivity. }
  destruct (boundary_split cs i Hs Hb) as (c1 & c2 & -> & ->).
  rewrite encode_app, nth_error_app2, Nat.sub_diag in H by lia.
  apply Forall_app in Hs. destruct Hs as [_ Hs].
  destruct c2 as [|c c2]; [discriminate|]. inversion Hs; subst.
  assert (Hc : c = 10%Z).
  { assert (D := decode1_encode c c2 H2). cbn [encode] in H. 
    destruct (encode_char_head c H2) as (b & t & He & _ & _). cbn [encode] in D. rewrite He in D, H. cbn [app nth_error] in H.
    injection H as ->. cbn [app decode1] in D. cbn in D. injection D as D _. congruence. }
  subst c. replace (c1 ++ 10%Z :: c2) with ((c1 ++ [10%Z]) ++ c2) by (rewrite <- app_assoc; reflexivity).
  replace (S (length (encode c1))) with (length (encode (c1 ++ [10%Z]))) by (rewrite encode_app, app_length; simpl; lia).
  now apply boundary_of_split.
Qed.

Lemma utf16_count_encode cs : Forall is_scalar cs -> utf16_count (encode cs) = utf16_len cs.
Proof. intros H. unfold utf16_count. rewrite chars_encode by assumption. reflexivity. Qed.
Lemma utf16_cons c cs : utf16_len (c :: cs) = (if (c <? 65536)%Z then 1 else 2) + utf16_len cs.
Proof. reflexivity. Qed.
Lemma utf16_app a b : utf16_len (a ++ b) = utf16_len a + utf16_len b.
Proof. unfold utf16_len. rewrite map_app. apply list_sum_app. Qed.

(** The loop stops before the first character that starts at or after the target. *)
Lemma column_loop_found cs : forall byte u target b,
  column_loop cs byte u target = Some b <->
  exists c1 c c2, cs = c1 ++ c :: c2 /\ b = byte + length (encode c1) /\ target <= u + utf16_len c1 /\
    (c1 <> [] -> u + utf16_len (removelast c1) < target).
Proof.
  induction cs as [|c cs IH]; intros byte u target b; cbn [column_loop].
  - split; [discriminate|]. intros (c1 & c & c2 & H & _). destruct c1; discriminate.
  - destruct (target <=? u) eqn:E.
    + apply Nat.leb_le in E. split.
      * intros H. injection H as <-. exists [], c, cs. simpl. repeat split; try lia. congruence.
      * intros (c1 & d & c2 & Hc & Hb & Ht & Hm). destruct c1 as [|e c1].
        -- simpl in Hb. f_equal. lia.
        -- exfalso. assert (Hx : e :: c1 <> []) by discriminate. specialize (Hm Hx). lia.
    + apply Nat.leb_gt in E. rewrite IH.
      assert (H16 : char_len16 c = if (c <? 65536)%Z then 1 else 2) by reflexivity.
      split.
      * intros (c1 & d & c2 & -> & -> & Ht & Hm). exists (c :: c1), d, c2. split; [reflexivity|].
        split; [simpl; rewrite app_length, encode_char_length; lia|]. rewrite utf16_cons. split; [lia|].
        intros _. destruct c1 as [|e c1]; [unfold utf16_len; simpl; lia|].
        assert (Hx : e :: c1 <> []) by discriminate. specialize (Hm Hx).
        change (removelast (c :: e :: c1)) with (c :: removelast (e :: c1)). rewrite utf16_cons. lia.
      * intros (c1 & d & c2 & Hc & Hb & Ht & Hm). destruct c1 as [|e c1].
        -- simpl in Ht. unfold utf16_len in Ht. simpl in Ht. lia.
        -- cbn [app] in Hc. injection Hc as <- ->. exists c1, d, c2. split; [reflexivity|].
           split; [simpl in Hb; rewrite app_length, encode_char_length in Hb; lia|].
           rewrite utf16_cons in Ht. split; [lia|]. intros Hne.
           assert (Hx : c :: c1 <> []) by discriminate. specialize (Hm Hx).
           destruct c1 as [|e c1]; [congruence|].
           change (removelast (c :: e :: c1)) with (c :: removelast (e :: c1)) in Hm. rewrite utf16_cons in Hm. lia.
Qed.
Lemma utf16_pos c : 1 <= (if (c <? 65536)%Z then 1 else 2).
Proof. destruct (_ <? _)%Z; lia. Qed.
Lemma column_loop_none cs : forall byte u target, column_loop cs byte u target = None <->
  (cs <> [] -> u + utf16_len (removelast cs) < target).
Proof.
  induction cs as [|c cs IH]; intros byte u target; cbn [column_loop].
  - split; [congruence|reflexivity].
  - destruct (target <=? u) eqn:E.
    + split; [discriminate|]. intros H. assert (Hx : c :: cs <> []) by discriminate. specialize (H Hx). lia.
    + apply Nat.leb_gt in E. rewrite IH. assert (H16 : char_len16 c = if (c <? 65536)%Z then 1 else 2) by reflexivity.
      destruct cs as [|d cs].
      * split; [intros _ _; simpl; unfold utf16_len; simpl; lia|congruence].
      * change (removelast (c :: d :: cs)) with (c :: removelast (d :: cs)). rewrite utf16_cons.
        split; intros H Hx; [assert (Hy : d :: cs <> []) by discriminate; specialize (H Hy); lia|].
        assert (Hy : c :: d :: cs <> []) by discriminate. specialize (H Hy). lia.
Qed.
Lemma column_loop_exact c1 c c2 : column_loop (c1 ++ c :: c2) 0 0 (utf16_len c1) = Some (length (encode c1)).
Proof.
  apply column_loop_found. exists c1, c, c2. split; [reflexivity|]. split; [lia|]. split; [lia|].
  intros Hne. destruct (exists_last Hne) as (p & x & ->). rewrite removelast_last, utf16_app. simpl.
  rewrite utf16_cons. assert (H := utf16_pos x). unfold utf16_len at 3. simpl. lia.
Qed.

(** Where a line of the map starts and ends. *)
Definition map_of (text : str) : line_map := LineMap (starts text) (length text).

Lemma line_end_bounds text i s : nth_error (starts text) i = Some s ->
  exists e, line_end (map_of text) i = Some e /\ s <= e <= length text /\
    (e = length text \/ begins_line text e) /\
    match nth_error (starts text) (i + 1) with Some n => e = n /\ s < e | None => e = length text end.
Proof.
  intros Hs. unfold line_end, map_of. cbn [lm_starts lm_len]. rewrite Hs. eexists. split; [reflexivity|].
  assert (Hsle : s <= length text).
  { assert (H := starts_le text). rewrite Forall_forall in H. apply H. eapply nth_error_In; eassumption. }
  destruct (nth_error (starts text) (i + 1)) as [n|] eqn:En.
  - assert (Hn : n <= length text).
    { assert (H := starts_le text). rewrite Forall_forall in H. apply H. eapply nth_error_In; eassumption. }
    assert (Hlt : s < n).
    { assert (Hso := starts_sorted text). revert Hs En Hso. generalize (starts text). clear. 
      induction i as [|i IH]; intros [|x l] Hs En Hso; try discriminate; inversion Hso; subst.
      - injection Hs as ->. change (nth_error l 0 = Some n) in En. rewrite Forall_forall in *. match goal with H : forall y, In y l -> _ |- _ => apply H end. eapply nth_error_In; eassumption.
      - simpl in Hs, En. eapply IH; eassumption. }
    rewrite Nat.max_l by lia. split; [lia|]. split; [|split; [reflexivity|assumption]].
    right. apply starts_in. eapply nth_error_In; eassumption.
  - rewrite Nat.max_l by lia. split; [lia|]. split; [now left|reflexivity].
Qed.
