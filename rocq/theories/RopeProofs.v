From Verif Require Import Base Utf8 Utf8Facts EditModel EditSpec EditProofs RopeModel RopeSpec.

Definition chunk_ok (c : str) : Prop := c <> [] /\ valid c.

Lemma total_len_concat : forall l, total_len l = length (concat l).
Proof. induction l as [| c l IH]; simpl; [reflexivity|]. now rewrite app_length, IH. Qed.

Lemma starts_from_length : forall l o, length (starts_from o l) = length l.
Proof. induction l as [| c l IH]; intros o; simpl; [reflexivity|]. now rewrite IH. Qed.

Lemma starts_from_nth : forall l o i s,
  nth_error (starts_from o l) i = Some s -> s = o + length (concat (firstn i l)).
Proof.
  induction l as [| c l IH]; intros o i s H; [destruct i; discriminate|].
  destruct i as [| i]; simpl in *.
  - inv H. lia.
  - apply IH in H. rewrite app_length. lia.
Qed.

Lemma starts_from_app : forall a b o,
  starts_from o (a ++ b) = starts_from o a ++ starts_from (o + length (concat a)) b.
Proof.
  induction a as [| c a IH]; intros b o; simpl.
  - now rewrite Nat.add_0_r.
  - rewrite IH, app_length. now rewrite Nat.add_assoc.
Qed.

Lemma wf_rebuild : forall l, Forall chunk_ok l -> wf_chunked (rebuild l).
Proof.
  intros l H. unfold wf_chunked, rebuild, text_of. simpl.
  split; [assumption|]. split; [apply starts_from_length|].
  split; [| apply total_len_concat].
  intros i s Hs. now apply starts_from_nth in Hs.
Qed.

Lemma wf_starts : forall r, wf_chunked r -> ck_starts r = starts_from 0 (ck_chunks r).
Proof.
  intros r (_ & Hl & Hs & _). apply list_ext_nth_error. intros i.
  destruct (nth_error (ck_starts r) i) as [s|] eqn:E.
  - pose proof (Hs i s E) as ->. symmetry.
    assert (Hi : i < length (starts_from 0 (ck_chunks r))).
    { rewrite starts_from_length, <- Hl. apply nth_error_Some. congruence. }
    apply nth_error_Some in Hi.
    destruct (nth_error (starts_from 0 (ck_chunks r)) i) as [x|] eqn:E2; [|congruence].
    apply starts_from_nth in E2. now rewrite E2.
  - symmetry. apply nth_error_None. apply nth_error_None in E.
    rewrite starts_from_length. lia.
Qed.

Lemma wf_eq : forall r, wf_chunked r -> r = rebuild (ck_chunks r).
Proof.
  intros r H. pose proof (wf_starts r H) as Hs. destruct H as (_ & _ & _ & Hl).
  destruct r as [cs ss n]. simpl in *. unfold rebuild. rewrite Hs.
  rewrite total_len_concat. unfold text_of in Hl. simpl in Hl. now rewrite Hl.
Qed.

(** ** Binary search on the offset table *)

Lemma bsearch_skip : forall pre l i x,
  Forall (fun y => y < x) pre -> bsearch_from i (pre ++ l) x = bsearch_from (i + length pre) l x.
Proof.
  induction pre as [| y pre IH]; intros l i x H; simpl.
  - now rewrite Nat.add_0_r.
  - inv H. replace (y =? x) with false by lia. replace (y <? x) with true by lia.
    rewrite IH by assumption. f_equal. lia.
Qed.

Lemma starts_from_lt : forall l o x,
  Forall chunk_ok l -> o + length (concat l) <= x ->
  Forall (fun y => y < x) (starts_from o l).
Proof.
  induction l as [| c l IH]; intros o x Hok Hx; simpl; [constructor|].
  inv Hok. destruct H1 as [Hne _]. simpl in Hx. rewrite app_length in Hx.
  assert (0 < length c) by (destruct c; [congruence | simpl; lia]).
  constructor; [lia|]. apply IH; [assumption | lia].
Qed.

(** The chunk holding an in-range offset. *)
Lemma locate : forall l off,
  Forall chunk_ok l -> off < length (concat l) ->
  exists pre c post, l = pre ++ c :: post /\
    length (concat pre) <= off < length (concat pre) + length c.
Proof.
  induction l as [| c l IH]; intros off Hok H; simpl in H; [lia|].
  rewrite app_length in H. inv Hok.
  destruct (Nat.lt_ge_cases off (length c)) as [Hlt | Hge].
  - exists [], c, l. simpl. split; [reflexivity | lia].
  - destruct (IH (off - length c)) as (pre & d & post & Heq & Hr); [assumption | lia |].
    exists (c :: pre), d, post. simpl. rewrite app_length. split; [now rewrite Heq | lia].
Qed.

Lemma bsearch_locate : forall pre c post off,
  Forall chunk_ok (pre ++ c :: post) ->
  length (concat pre) <= off < length (concat pre) + length c ->
  bsearch (starts_from 0 (pre ++ c :: post)) off
  = if off =? length (concat pre) then Found (length pre) else Missing (S (length pre)).
Proof.
  intros pre c post off Hok H. apply Forall_app in Hok. destruct Hok as [Hp Hc]. inv Hc.
  unfold bsearch. rewrite starts_from_app. simpl.
  rewrite bsearch_skip.
  2:{ apply starts_from_lt; [assumption | simpl; lia]. }
  rewrite starts_from_length. simpl.
  destruct (off =? length (concat pre)) eqn:E.
  - apply Nat.eqb_eq in E. rewrite E. now rewrite Nat.eqb_refl.
  - replace (length (concat pre) =? off) with false by lia.
    replace (length (concat pre) <? off) with true by lia.
    destruct post as [| d post]; simpl; [reflexivity|].
    replace (length (concat pre) + length c =? off) with false by lia.
    now replace (length (concat pre) + length c <? off) with false by lia.
Qed.

Lemma bsearch_end : forall l off,
  Forall chunk_ok l -> length (concat l) <= off ->
  bsearch (starts_from 0 l) off = Missing (length l).
Proof.
  intros l off Hok H. unfold bsearch.
  rewrite <- (app_nil_r (starts_from 0 l)). rewrite bsearch_skip.
  - simpl. now rewrite starts_from_length.
  - apply starts_from_lt; [assumption | simpl; lia].
Qed.

Lemma starts_nth_mid : forall pre c post,
  nth_error (starts_from 0 (pre ++ c :: post)) (length pre) = Some (length (concat pre)).
Proof.
  intros. rewrite starts_from_app, nth_error_app2 by (rewrite starts_from_length; lia).
  rewrite starts_from_length, Nat.sub_diag. reflexivity.
Qed.

Lemma nth_error_mid : forall (A : Type) (pre : list A) c post,
  nth_error (pre ++ c :: post) (length pre) = Some c.
Proof.
  intros. rewrite nth_error_app2 by lia. now rewrite Nat.sub_diag.
Qed.

Lemma find_chunk_locate : forall pre c post off,
  Forall chunk_ok (pre ++ c :: post) ->
  length (concat pre) <= off < length (concat pre) + length c ->
  find_chunk (starts_from 0 (pre ++ c :: post)) off = length pre.
Proof.
  intros. unfold find_chunk. rewrite bsearch_locate by assumption.
  now destruct (off =? length (concat pre)).
Qed.

Lemma find_chunk_end : forall pre c,
  Forall chunk_ok (pre ++ [c]) ->
  find_chunk (starts_from 0 (pre ++ [c])) (length (concat (pre ++ [c]))) = length pre.
Proof.
  intros. unfold find_chunk. rewrite bsearch_end by (assumption || lia).
  rewrite app_length. simpl. now rewrite Nat.add_1_r.
Qed.

Lemma chunk_index_locate : forall pre c post off,
  Forall chunk_ok (pre ++ c :: post) ->
  length (concat pre) <= off < length (concat pre) + length c ->
  chunk_index (rebuild (pre ++ c :: post)) off = Some (length pre, length (concat pre)).
Proof.
  intros pre c post off Hok H. unfold chunk_index. cbn [ck_starts ck_len rebuild].
  replace (Nat.min off (total_len (pre ++ c :: post) - 1)) with off.
  2:{ rewrite total_len_concat, concat_app, app_length. simpl. rewrite app_length. lia. }
  rewrite bsearch_locate by assumption.
  destruct (off =? length (concat pre)); now rewrite starts_nth_mid.
Qed.

(** ** Character boundaries of a concatenation *)

Lemma chunks_valid : forall l, Forall chunk_ok l -> valid (concat l).
Proof.
  intros l H. apply valid_concat. eapply Forall_impl; [| exact H]. now intros c [_ Hv].
Qed.

Lemma boundary_in_chunk : forall pre c post off,
  Forall chunk_ok (pre ++ c :: post) ->
  length (concat pre) <= off < length (concat pre) + length c ->
  is_boundary (concat (pre ++ c :: post)) off = is_boundary c (off - length (concat pre)).
Proof.
  intros pre c post off Hok H.
  apply Forall_app in Hok. destruct Hok as [Hp Hc]. inv Hc. destruct H2 as [Hne Hcv].
  rewrite concat_app. simpl.
  replace off with (length (concat pre) + (off - length (concat pre))) at 1 by lia.
  assert (Hv : valid (c ++ concat post)) by (apply valid_app; [assumption | now apply chunks_valid]).
  rewrite boundary_skipn.
  - rewrite skipn_app_exact.
    rewrite <- (boundary_firstn (c ++ concat post) (length c)).
    + now rewrite firstn_app_exact.
    + lia.
    + rewrite app_length. lia.
  - apply valid_app; [now apply chunks_valid | assumption].
  - now apply is_boundary_app.
Qed.

(** ** Chunkify *)

Lemma back_to_boundary_spec : forall text start e,
  start <= e -> is_boundary text start = true ->
  let e' := back_to_boundary text start e in
  start <= e' <= e /\ is_boundary text e' = true.
Proof.
  intros text start e. induction e as [| e IH]; intros Hle Hb.
  - simpl. replace (start <? 0) with false by lia. simpl. split; [lia | reflexivity].
  - cbn [back_to_boundary]. destruct ((start <? S e) && negb (is_boundary text (S e))) eqn:E.
    + apply andb_prop in E. destruct E as [E1 E2]. apply Nat.ltb_lt in E1.
      destruct IH as [H1 H2]; [lia | assumption |]. split; [lia | assumption].
    + split; [lia|]. apply andb_false_iff in E. destruct E as [E | E].
      * assert (start = S e) by lia. now subst start.
      * now apply negb_false_iff in E.
Qed.

Lemma str_get_ok : forall s a b,
  a <= b -> b <= length s -> is_boundary s a = true -> is_boundary s b = true ->
  str_get s a b = Some (substr s a b).
Proof.
  intros s a b H1 H2 H3 H4. unfold str_get. rewrite H3, H4.
  replace (a <=? b) with true by lia. now replace (b <=? length s) with true by lia.
Qed.

Lemma chunkify_loop_spec : forall csz fuel text start,
  valid text -> is_boundary text start = true -> length text - start < fuel ->
  exists cs, chunkify_loop csz fuel text start = Some cs /\
    concat cs = skipn start text /\ Forall chunk_ok cs.
Proof.
  intros csz fuel. induction fuel as [| f IH]; intros text start Hv Hb Hf; [lia|].
  cbn [chunkify_loop]. destruct (start <? length text) eqn:Es.
  - apply Nat.ltb_lt in Es.
    pose proof (back_to_boundary_spec text start (Nat.min (start + csz) (length text)) ltac:(lia) Hb) as [Hr Hbe].
    set (e1 := back_to_boundary text start (Nat.min (start + csz) (length text))) in *.
    set (e := if e1 =? start then length text else e1).
    assert (He : start < e /\ e <= length text /\ is_boundary text e = true).
    { unfold e. destruct (e1 =? start) eqn:E.
      - split; [lia|]. split; [lia | apply is_boundary_length].
      - apply Nat.eqb_neq in E. split; [lia|]. split; [lia | assumption]. }
    destruct He as (He1 & He2 & He3).
    rewrite str_get_ok by (assumption || lia).
    destruct (IH text e Hv He3 ltac:(lia)) as (cs & Hcs & Hcc & Hok).
    rewrite Hcs. eexists. split; [reflexivity|]. split.
    + simpl. rewrite Hcc. symmetry. apply skipn_firstn_split. lia.
    + constructor; [|assumption]. split.
      * intros Hn. pose proof (substr_length text start e ltac:(lia) He2) as Hl.
        rewrite Hn in Hl. simpl in Hl. lia.
      * apply valid_substr; auto. lia.
  - apply Nat.ltb_ge in Es. exists []. split; [reflexivity|]. split; [|constructor].
    simpl. now rewrite skipn_all2.
Qed.

Lemma chunkify_spec : forall csz text,
  valid text -> exists cs, chunkify csz text = Some cs /\ concat cs = text /\ Forall chunk_ok cs.
Proof.
  intros csz text Hv. destruct text as [| b text].
  - exists []. repeat split; constructor.
  - unfold chunkify. remember (b :: text) as t.
    destruct (chunkify_loop_spec csz (S (length t)) t 0 Hv) as (cs & H1 & H2 & H3); auto; [lia|].
    exists cs. rewrite H1. auto.
Qed.

(** Chunks respect the chunk size when it is at least one character long. *)
Lemma back_to_boundary_progress : forall text start e,
  valid text -> is_boundary text start = true -> start + 4 <= e -> e <= length text ->
  start < back_to_boundary text start e.
Proof.
  intros text start e Hv Hb He Hl.
  destruct (valid_split text start Hv Hb) as [_ Hv2].
  destruct Hv2 as [cs [Hs Heq]].
  destruct cs as [| c cs].
  { assert (length (skipn start text) = 0) by now rewrite Heq. rewrite skipn_length in H. lia. }
  inv Hs.
  assert (Hb2 : is_boundary text (start + char_len c) = true).
  { rewrite boundary_skipn by assumption. rewrite Heq. simpl.
    apply is_boundary_app'; [now exists cs | now rewrite encode_char_length]. }
  assert (Hk : forall k, start + char_len c <= k -> start + char_len c <= back_to_boundary text start k).
  { induction k as [| k IHk]; intros Hk; [pose proof (char_len_pos c); lia|].
    cbn [back_to_boundary]. destruct ((start <? S k) && negb (is_boundary text (S k))) eqn:E.
    - destruct (Nat.eq_dec (start + char_len c) (S k)) as [Heqk | Hne].
      + rewrite <- Heqk in E. rewrite Hb2 in E. rewrite andb_false_r in E. discriminate.
      + apply IHk. lia.
    - lia. }
  pose proof (char_len_pos c) as Hcl. specialize (Hk e ltac:(lia)). lia.
Qed.

Lemma chunkify_loop_size : forall csz fuel text start cs,
  4 <= csz -> valid text -> is_boundary text start = true ->
  chunkify_loop csz fuel text start = Some cs -> Forall (fun c => length c <= csz) cs.
Proof.
  intros csz fuel. induction fuel as [| f IH]; intros text start cs Hc Hv Hb H; [discriminate|].
  cbn [chunkify_loop] in H. destruct (start <? length text) eqn:Es.
  - apply Nat.ltb_lt in Es.
    pose proof (back_to_boundary_spec text start (Nat.min (start + csz) (length text)) ltac:(lia) Hb) as [Hr Hbe].
    set (e1 := back_to_boundary text start (Nat.min (start + csz) (length text))) in *.
    destruct (e1 =? start) eqn:E.
    + apply Nat.eqb_eq in E.
      assert (Hlt : length text < start + csz).
      { destruct (Nat.lt_ge_cases (length text) (start + csz)); [assumption|].
        exfalso. assert (start < e1); [|lia]. unfold e1.
        apply back_to_boundary_progress; auto; lia. }
      destruct (str_get text start (length text)) as [part|] eqn:Eg; [|discriminate].
      destruct (chunkify_loop csz f text (length text)) as [rest|] eqn:Er; [|discriminate].
      injection H as <-. constructor.
      * unfold str_get in Eg. destruct (_ && _ && _ && _); [|discriminate]. injection Eg as <-. rewrite substr_length; lia.
      * exact (IH text (length text) rest Hc Hv (is_boundary_length _) Er).
    + destruct (str_get text start e1) as [part|] eqn:Eg; [|discriminate].
      destruct (chunkify_loop csz f text e1) as [rest|] eqn:Er; [|discriminate].
      injection H as <-. constructor.
      * unfold str_get in Eg. destruct (_ && _ && _ && _); [|discriminate]. injection Eg as <-. rewrite substr_length; lia.
      * exact (IH text e1 rest Hc Hv Hbe Er).
  - inv H. constructor.
Qed.

Lemma chunkify_size : forall csz text cs,
  4 <= csz -> valid text -> chunkify csz text = Some cs -> Forall (fun c => length c <= csz) cs.
Proof.
  intros csz text cs Hc Hv H. destruct text as [| b text].
  - inv H. constructor.
  - unfold chunkify in H. eapply chunkify_loop_size; [assumption | exact Hv | | exact H]. reflexivity.
Qed.

(** ** Splitting and replacing *)

Definition border (l : list str) (off : nat) : Prop :=
  exists pre post, l = pre ++ post /\ length (concat pre) = off.

Lemma border_0 : forall l, border l 0.
Proof. intros l. exists [], l. split; reflexivity. Qed.

Lemma border_end : forall l, border l (length (concat l)).
Proof. intros l. exists l, []. split; [now rewrite app_nil_r | reflexivity]. Qed.

Lemma split_at_spec : forall l off,
  Forall chunk_ok l -> is_boundary (concat l) off = true ->
  exists l', split_at (rebuild l) off = Some (rebuild l') /\
    Forall chunk_ok l' /\ concat l' = concat l /\ border l' off /\
    (forall o, border l o -> border l' o).
Proof.
  intros l off Hok Hb. pose proof (is_boundary_le _ _ Hb) as Hle.
  unfold split_at. cbn [ck_len rebuild]. rewrite total_len_concat.
  destruct ((off =? 0) || (length (concat l) <=? off)) eqn:E.
  - exists l. repeat split; auto.
    apply orb_prop in E. destruct E as [E | E].
    + apply Nat.eqb_eq in E. subst. apply border_0.
    + apply Nat.leb_le in E. replace off with (length (concat l)) by lia. apply border_end.
  - apply orb_false_iff in E. destruct E as [E1 E2].
    apply Nat.eqb_neq in E1. apply Nat.leb_gt in E2.
    destruct (locate l off Hok E2) as (pre & c & post & -> & Hr).
    rewrite chunk_index_locate by assumption. cbn [ck_chunks rebuild].
    rewrite nth_error_mid.
    destruct ((off - length (concat pre) =? 0) || (length c <=? off - length (concat pre))) eqn:E3.
    + exists (pre ++ c :: post). repeat split; auto.
      exists pre, (c :: post). split; [reflexivity|]. lia.
    + rewrite boundary_in_chunk in Hb by assumption.
      set (rel := off - length (concat pre)) in *.
      assert (Hrel : 0 < rel < length c) by lia.
      apply Forall_app in Hok. destruct Hok as [Hp Hc]. inv Hc. destruct H1 as [Hne Hcv].
      rewrite str_get_ok by (auto; lia).
      unfold str_get_from. replace (rel <=? length c) with true by lia. rewrite Hb. cbn [andb].
      destruct (valid_split c rel Hcv Hb) as [Hv1 Hv2].
      assert (Hl1 : length (substr c 0 rel) = rel) by (rewrite substr_length; lia).
      assert (Hl2 : length (skipn rel c) = length c - rel) by apply skipn_length.
      assert (Hs1 : substr c 0 rel = firstn rel c) by (unfold substr; now rewrite Nat.sub_0_r).
      assert (Hn1 : is_nil (substr c 0 rel) = false).
      { destruct (substr c 0 rel); [simpl in Hl1; lia | reflexivity]. }
      assert (Hn2 : is_nil (skipn rel c) = false).
      { destruct (skipn rel c); [simpl in Hl2; lia | reflexivity]. }
      rewrite Hn1, Hn2. cbn [orb].
      rewrite firstn_app_exact.
      replace (skipn (S (length pre)) (pre ++ c :: post)) with post.
      2:{ rewrite skipn_app_ge by lia. now replace (S (length pre) - length pre) with 1 by lia. }
      exists (pre ++ substr c 0 rel :: skipn rel c :: post).
      split; [reflexivity|]. split.
      { apply Forall_app. split; [assumption|].
        constructor; [split; [destruct (substr c 0 rel); [discriminate|congruence] | now rewrite Hs1]|].
        constructor; [split; [destruct (skipn rel c); [discriminate|congruence] | assumption]|].
        assumption. }
      split.
      { rewrite !concat_app. simpl. rewrite Hs1, (app_assoc (firstn rel c)), firstn_skipn. reflexivity. }
      split.
      { exists (pre ++ [substr c 0 rel]), (skipn rel c :: post). split; [now rewrite <- app_assoc|].
        rewrite concat_app, app_length. simpl. rewrite app_nil_r. lia. }
      intros o (p1 & p2 & Heq & Ho).
      destruct (Nat.le_gt_cases (length p1) (length pre)) as [Hpl | Hpl].
      * assert (exists q, pre = p1 ++ q) as [q ->].
        { exists (skipn (length p1) pre).
          rewrite <- (firstn_skipn (length p1) pre) at 1. f_equal.
          assert (firstn (length p1) (pre ++ c :: post) = firstn (length p1) (p1 ++ p2)) by now rewrite Heq.
          rewrite firstn_app_le in H by lia. now rewrite firstn_app_exact in H. }
        exists p1, (q ++ substr c 0 rel :: skipn rel c :: post).
        split; [now rewrite <- app_assoc | assumption].
      * assert (exists q, p1 = pre ++ c :: q /\ post = q ++ p2) as (q & -> & ->).
        { assert (Hf : firstn (length p1) (pre ++ c :: post) = p1) by (rewrite Heq; apply firstn_app_exact).
          assert (Hs : skipn (length p1) (pre ++ c :: post) = p2) by (rewrite Heq; apply skipn_app_exact).
          rewrite firstn_app_ge in Hf by lia. rewrite skipn_app_ge in Hs by lia.
          destruct (length p1 - length pre) as [| k] eqn:Ek; [lia|]. simpl in Hf, Hs.
          exists (firstn k post). split; [now rewrite Hf|].
          rewrite <- Hs. now rewrite firstn_skipn. }
        exists (pre ++ substr c 0 rel :: skipn rel c :: q), p2.
        split; [now rewrite <- app_assoc|].
        rewrite <- Ho. rewrite !concat_app, !app_length. simpl. rewrite !app_length. lia.
Qed.

Lemma boundary_index_border : forall pre post off,
  Forall chunk_ok (pre ++ post) -> length (concat pre) = off ->
  boundary_index (rebuild (pre ++ post)) off = length pre.
Proof.
  intros pre post off Hok Ho. unfold boundary_index. cbn [ck_len ck_chunks ck_starts rebuild].
  rewrite total_len_concat, concat_app, app_length.
  destruct post as [| c post].
  - simpl. replace (length (concat pre) + 0 <=? off) with true by lia. now rewrite app_nil_r.
  - assert (0 < length c).
    { apply Forall_app in Hok. destruct Hok as [_ H]. inv H. destruct H2 as [Hne _].
      destruct c; [congruence | simpl; lia]. }
    simpl. rewrite app_length.
    replace (length (concat pre) + (length c + length (concat post)) <=? off) with false by lia.
    rewrite bsearch_locate by (assumption || lia).
    now replace (off =? length (concat pre)) with true by lia.
Qed.

Lemma border_idx_le : forall p1 q1 p2 q2,
  Forall chunk_ok (p1 ++ q1) -> p1 ++ q1 = p2 ++ q2 ->
  length (concat p1) < length (concat p2) -> length p1 < length p2.
Proof.
  intros p1 q1 p2 q2 Hok Heq H.
  destruct (Nat.lt_ge_cases (length p1) (length p2)) as [Hl | Hl]; [assumption|].
  exfalso.
  assert (Hp : p2 = firstn (length p2) p1).
  { assert (Hf : firstn (length p2) (p1 ++ q1) = p2) by (rewrite Heq; apply firstn_app_exact).
    rewrite firstn_app_le in Hf by lia. now symmetry. }
  assert (Hle : length (concat (firstn (length p2) p1)) <= length (concat p1)).
  { rewrite <- (firstn_skipn (length p2) p1) at 2. rewrite concat_app, app_length. lia. }
  rewrite <- Hp in Hle. lia.
Qed.

Lemma border_idx_eq : forall p1 q1 p2 q2,
  Forall chunk_ok (p1 ++ q1) -> p1 ++ q1 = p2 ++ q2 ->
  length (concat p1) = length (concat p2) -> p1 = p2 /\ q1 = q2.
Proof.
  induction p1 as [| x p1 IH]; intros q1 p2 q2 Hok Heq Hl; destruct p2 as [| y p2]; simpl in *.
  - auto.
  - subst q1. inv Hok. destruct H1 as [Hne _]. rewrite app_length in Hl.
    destruct y; [congruence | simpl in Hl; lia].
  - inv Hok. destruct H1 as [Hne _]. rewrite app_length in Hl.
    destruct x; [congruence | simpl in Hl; lia].
  - inv Heq. inv Hok. rewrite !app_length in Hl.
    destruct (IH q1 p2 q2) as [-> ->]; auto. lia.
Qed.

Lemma rope_replace_spec : forall csz l a b t s',
  Forall chunk_ok l -> valid t ->
  replace_range (concat l) a b t = Some s' ->
  exists l', rope_replace csz (rebuild l) a b t = Some (rebuild l') /\
    Forall chunk_ok l' /\ concat l' = s'.
Proof.
  intros csz l a b t s' Hok Ht Hr. unfold replace_range in Hr.
  destruct ((a <=? b) && (b <=? length (concat l)) && is_boundary (concat l) a && is_boundary (concat l) b) eqn:E;
    [|discriminate]. injection Hr as <-.
  apply andb_prop in E. destruct E as [E E4]. apply andb_prop in E. destruct E as [E E3].
  apply andb_prop in E. destruct E as [E1 E2]. apply Nat.leb_le in E1, E2.
  unfold rope_replace. cbn [ck_len rebuild]. rewrite total_len_concat.
  replace (Nat.min a (length (concat l))) with a by lia.
  replace (Nat.max (Nat.min b (length (concat l))) a) with b by lia.
  destruct (split_at_spec l a Hok E3) as (l1 & H1 & Hok1 & Hc1 & Hb1 & _).
  rewrite H1. rewrite <- Hc1 in E4.
  destruct (split_at_spec l1 b Hok1 E4) as (l2 & H2 & Hok2 & Hc2 & Hb2 & Hpres).
  rewrite H2. apply Hpres in Hb1.
  destruct Hb1 as (pa & qa & Ha & Hla). destruct Hb2 as (pb & qb & Hbb & Hlb).
  cbn [ck_chunks rebuild].
  assert (Hia : boundary_index (rebuild l2) a = length pa).
  { rewrite Ha. apply boundary_index_border; [now rewrite <- Ha | assumption]. }
  assert (Hib : boundary_index (rebuild l2) b = length pb).
  { rewrite Hbb. apply boundary_index_border; [now rewrite <- Hbb | assumption]. }
  rewrite Hia, Hib.
  assert (Hta : concat pa = firstn a (concat l)).
  { rewrite <- Hc1, <- Hc2, Ha, concat_app. symmetry. now apply firstn_app_exact'. }
  assert (Htb : concat qb = skipn b (concat l)).
  { rewrite <- Hc1, <- Hc2, Hbb, concat_app. symmetry. now apply skipn_app_exact'. }
  set (chunks1 := if length pa <? length pb
                  then firstn (length pa) l2 ++ skipn (length pb) l2 else l2).
  assert (Hch1 : chunks1 = pa ++ qb).
  { unfold chunks1. destruct (length pa <? length pb) eqn:El.
    - rewrite Ha at 1. rewrite firstn_app_exact. rewrite Hbb. now rewrite skipn_app_exact.
    - apply Nat.ltb_ge in El.
      assert (length (concat pa) = length (concat pb)).
      { destruct (Nat.eq_dec (length (concat pa)) (length (concat pb))) as [|Hne]; [assumption|].
        pose proof (border_idx_le pa qa pb qb ltac:(now rewrite <- Ha) ltac:(congruence) ltac:(lia)). lia. }
      destruct (border_idx_eq pa qa pb qb) as [-> ->]; auto; try congruence. }
  assert (Hok3 : Forall chunk_ok pa /\ Forall chunk_ok qb).
  { split.
    - rewrite Ha in Hok2. apply Forall_app in Hok2. tauto.
    - rewrite Hbb in Hok2. apply Forall_app in Hok2. tauto. }
  destruct Hok3 as [Hpa Hqb].
  destruct t as [| t0 t].
  - rewrite Hch1. exists (pa ++ qb). split; [reflexivity|]. split; [now apply Forall_app|].
    rewrite concat_app, Hta, Htb. reflexivity.
  - remember (t0 :: t) as tt eqn:Ett.
    destruct (chunkify_spec csz tt Ht) as (cs & Hcs & Hcc & Hcok). rewrite Hcs.
    rewrite Hch1. rewrite app_length.
    replace (Nat.min (length pa) (length pa + length qb)) with (length pa) by lia.
    rewrite firstn_app_exact, skipn_app_exact.
    exists (pa ++ cs ++ qb). split; [reflexivity|]. split.
    + apply Forall_app. split; [assumption|]. now apply Forall_app.
    + now rewrite !concat_app, Hta, Htb, Hcc.
Qed.

(** ** Refinement *)

Lemma replace_range_valid : forall s a b t s',
  valid s -> valid t -> replace_range s a b t = Some s' -> valid s'.
Proof.
  intros s a b t s' Hs Ht H. unfold replace_range in H.
  destruct ((a <=? b) && (b <=? length s) && is_boundary s a && is_boundary s b) eqn:E; [|discriminate].
  inv H. apply andb_prop in E. destruct E as [E E4]. apply andb_prop in E. destruct E as [E E3].
  apply valid_app; [now apply valid_split|]. apply valid_app; [assumption | now apply valid_split].
Qed.

Definition rope_fold (csz : nat) (r : chunked) (sorted : list edit) : option chunked :=
  fold_right (fun e acc =>
    match acc with
    | None => None
    | Some r' => rope_replace csz r' (e_start e) (e_end e) (e_text e)
    end) (Some r) sorted.

Lemma rope_fold_spec : forall csz sorted l s',
  Forall chunk_ok l -> Forall (fun e => valid (e_text e)) sorted ->
  replace_all_rev (concat l) sorted = Some s' ->
  exists l', rope_fold csz (rebuild l) sorted = Some (rebuild l') /\
    Forall chunk_ok l' /\ concat l' = s'.
Proof.
  intros csz sorted. induction sorted as [| e sorted IH]; intros l s' Hok Ht H.
  - simpl in H. inv H. exists l. auto.
  - inv Ht. cbn [replace_all_rev fold_right] in H.
    fold (replace_all_rev (concat l) sorted) in H.
    destruct (replace_all_rev (concat l) sorted) as [s1|] eqn:E; [|discriminate].
    destruct (IH l s1 Hok H3 E) as (l1 & Hl1 & Hok1 & Hc1).
    cbn [rope_fold fold_right]. fold (rope_fold csz (rebuild l) sorted). rewrite Hl1.
    apply rope_replace_spec; auto. now rewrite Hc1.
Qed.

Lemma rope_apply_spec : forall csz r es s' rg,
  wf_chunked r -> Forall (fun e => valid (e_text e)) es ->
  apply_edits_range (text_of r) es = Some (s', rg) ->
  exists r', rope_apply csz r es = Some (r', rg) /\ wf_chunked r' /\ text_of r' = s'.
Proof.
  intros csz r es s' rg Hwf Ht H.
  pose proof (wf_eq r Hwf) as Hr. destruct Hwf as (Hok & Hwf2).
  assert (Hlen : ck_len r = length (text_of r)) by tauto.
  destruct es as [| e es].
  - simpl in H. inv H. exists r. simpl. rewrite Hlen. repeat split; tauto.
  - unfold apply_edits_range in H. unfold rope_apply. rewrite Hlen.
    destruct (fold_left range_step (sort_edits (e :: es)) (length (text_of r), 0%Z, 0%Z)) as [[from to] d].
    destruct (replace_all_rev (text_of r) (sort_edits (e :: es))) as [s1|] eqn:E; [|discriminate].
    inv H.
    destruct (rope_fold_spec csz (sort_edits (e :: es)) (ck_chunks r) s' Hok) as (l' & H1 & H2 & H3).
    + eapply Forall_perm; [symmetry; apply sort_edits_perm | assumption].
    + exact E.
    + unfold rope_fold in H1. rewrite <- Hr in H1. rewrite H1.
      exists (rebuild l'). split; [reflexivity|]. split; [now apply wf_rebuild | exact H3].
Qed.

Lemma apply_edits_range_valid : forall s es s' rg,
  valid s -> Forall (fun e => valid (e_text e)) es ->
  apply_edits_range s es = Some (s', rg) -> valid s'.
Proof.
  intros s es s' rg Hs Ht H. destruct es as [| e es].
  - simpl in H. now inv H.
  - unfold apply_edits_range in H.
    destruct (fold_left range_step (sort_edits (e :: es)) (length s, 0%Z, 0%Z)) as [[from to] d].
    assert (Ht' : Forall (fun e => valid (e_text e)) (sort_edits (e :: es))).
    { eapply Forall_perm; [symmetry; apply sort_edits_perm | assumption]. }
    destruct (replace_all_rev s (sort_edits (e :: es))) as [s1|] eqn:E; [|discriminate]. inv H.
    clear Ht. revert s' E Ht'. generalize (sort_edits (e :: es)).
    induction l as [| x l IH]; intros s' E Ht'; simpl in E.
    + now inv E.
    + inv Ht'. fold (replace_all_rev s l) in E.
      destruct (replace_all_rev s l) as [s1|] eqn:E1; [|discriminate].
      eapply replace_range_valid; [apply IH; [reflexivity | assumption] | exact H1 | exact E].
Qed.

Lemma rope_history_spec : forall csz batches r s' rgs,
  wf_chunked r -> Forall (Forall (fun e => valid (e_text e))) batches ->
  flat_history (text_of r) batches = Some (s', rgs) ->
  exists r', rope_history csz r batches = Some (r', rgs) /\ wf_chunked r' /\ text_of r' = s'.
Proof.
  intros csz batches. induction batches as [| es rest IH]; intros r s' rgs Hwf Ht H; simpl in H.
  - inv H. exists r. simpl. auto.
  - inv Ht. destruct (apply_edits_range (text_of r) es) as [[s1 rg]|] eqn:E; [|discriminate].
    destruct (flat_history s1 rest) as [[s2 rgs2]|] eqn:E2; [|discriminate]. inv H.
    destruct (rope_apply_spec csz r es s1 rg Hwf H2 E) as (r1 & Hr1 & Hwf1 & Ht1).
    rewrite <- Ht1 in E2.
    destruct (IH r1 s' rgs2 Hwf1 H3 E2) as (r2 & Hr2 & Hwf2 & Ht2).
    exists r2. simpl. rewrite Hr1, Hr2. auto.
Qed.

Lemma rope_new_spec : forall csz s,
  valid s -> exists r, rope_new csz s = Some r /\ wf_chunked r /\ text_of r = s.
Proof.
  intros csz s Hv. destruct (chunkify_spec csz s Hv) as (cs & H1 & H2 & H3).
  exists (rebuild cs). unfold rope_new. rewrite H1. split; [reflexivity|].
  split; [now apply wf_rebuild | exact H2].
Qed.

Lemma rope_refines_string : forall csz s batches s' rgs,
  valid s -> Forall (Forall (fun e => valid (e_text e))) batches ->
  flat_history s batches = Some (s', rgs) ->
  exists r0 r', rope_new csz s = Some r0 /\
    rope_history csz r0 batches = Some (r', rgs) /\ wf_chunked r' /\ text_of r' = s'.
Proof.
  intros csz s batches s' rgs Hv Ht H.
  destruct (rope_new_spec csz s Hv) as (r0 & H0 & Hwf & Ht0). rewrite <- Ht0 in H.
  destruct (rope_history_spec csz batches r0 s' rgs Hwf Ht H) as (r' & H1 & H2 & H3).
  exists r0, r'. auto.
Qed.

(** ** Access *)

Lemma chunk_at_spec : forall r off,
  wf_chunked r -> off < length (text_of r) ->
  exists st t, chunk_at r off = Some (st, t) /\ rope_chunk_at r off = Some (st, t) /\
    st <= off < st + length t /\ st + length t <= length (text_of r) /\
    t = substr (text_of r) st (st + length t) /\ valid t /\
    is_boundary (text_of r) st = true /\ is_boundary (text_of r) (st + length t) = true.
Proof.
  intros r off Hwf Hoff. pose proof (wf_eq r Hwf) as Hr. destruct Hwf as (Hok & _).
  unfold text_of in *. destruct (locate _ _ Hok Hoff) as (pre & c & post & Heq & Hrange).
  rewrite Hr. cbn [ck_chunks rebuild]. rewrite Heq in *.
  exists (length (concat pre)), c.
  assert (Hlen : length (concat (pre ++ c :: post)) = length (concat pre) + (length c + length (concat post))).
  { rewrite concat_app, app_length. simpl. now rewrite app_length. }
  split; [|split; [|split; [|split; [|split; [|split; [|split]]]]]].
  - unfold chunk_at. cbn [ck_len ck_starts ck_chunks rebuild]. rewrite total_len_concat.
    replace (length (concat (pre ++ c :: post)) <=? off) with false by lia.
    rewrite find_chunk_locate by assumption.
    now rewrite starts_nth_mid, nth_error_mid.
  - unfold rope_chunk_at. cbn [ck_len]. change (ck_len (rebuild (pre ++ c :: post))) with (total_len (pre ++ c :: post)).
    rewrite total_len_concat.
    replace (length (concat (pre ++ c :: post)) <=? off) with false by lia.
    rewrite chunk_index_locate by assumption. cbn [ck_chunks rebuild].
    now rewrite nth_error_mid.
  - lia.
  - lia.
  - unfold substr. rewrite concat_app. simpl.
    replace (length (concat pre) + length c - length (concat pre)) with (length c) by lia.
    now rewrite skipn_app_exact, firstn_app_exact.
  - apply Forall_app in Hok. destruct Hok as [_ H]. inv H. destruct H2. assumption.
  - rewrite concat_app. apply is_boundary_app. simpl.
    apply Forall_app in Hok. destruct Hok as [_ H]. now apply (chunks_valid (c :: post)).
  - rewrite concat_app. simpl. rewrite app_assoc. apply is_boundary_app'.
    + apply Forall_app in Hok. destruct Hok as [_ H]. inv H. now apply chunks_valid.
    + now rewrite app_length.
Qed.

Lemma chunk_at_end : forall r off,
  wf_chunked r -> length (text_of r) <= off ->
  chunk_at r off = Some (length (text_of r), []) /\
  rope_chunk_at r off = Some (length (text_of r), []).
Proof.
  intros r off (_ & _ & _ & Hl) H. unfold chunk_at, rope_chunk_at. rewrite Hl.
  replace (length (text_of r) <=? off) with true by lia. auto.
Qed.

Lemma copy_segments_tail : forall starts start end_ si ei mid c2 i,
  (forall k, i <= k <= i + length mid -> nth_error starts k <> None) ->
  si < i -> ei = i + length mid -> (forall x, In x mid -> valid x) -> 
  copy_segments starts start end_ si ei i (mid ++ [c2])
  = match nth_error starts ei with
    | None => None
    | Some base =>
        Some (concat mid ++ match str_get c2 0 (end_ - base) with Some x => x | None => [] end)
    end.
Proof.
  intros starts start end_ si ei mid. induction mid as [| c mid IH]; intros c2 i Hn Hsi Hei Hv.
  - simpl in *. rewrite Nat.add_0_r in Hei. subst ei.
    destruct (nth_error starts i) as [base|] eqn:E; [|reflexivity].
    replace (i =? si) with false by lia. rewrite Nat.eqb_refl. now rewrite app_nil_r.
  - cbn [app copy_segments length] in *.
    destruct (nth_error starts i) as [base|] eqn:E.
    2:{ exfalso. apply (Hn i); [lia | assumption]. }
    replace (i =? si) with false by lia. replace (i =? ei) with false by lia.
    rewrite (IH c2 (S i)); [| |lia|lia|].
    + rewrite str_get_ok; [| lia | lia | reflexivity | apply is_boundary_length].
      rewrite substr_full. destruct (nth_error starts ei); [|reflexivity].
      cbn [concat]. now rewrite app_assoc.
    + intros k Hk. apply Hn. lia.
    + intros x Hx. apply Hv. now right.
Qed.

Lemma text_in_chunks_spec : forall r a b,
  wf_chunked r -> a <= b -> b <= length (text_of r) ->
  is_boundary (text_of r) a = true -> is_boundary (text_of r) b = true ->
  text_in_chunks r a b = Some (substr (text_of r) a b).
Proof.
  intros r a b Hwf Hab Hb Hba Hbb. pose proof (wf_eq r Hwf) as Hr.
  assert (Hlen : ck_len r = length (text_of r)) by (destruct Hwf; tauto).
  destruct Hwf as (Hok & _). fold chunk_ok in Hok.
  unfold text_in_chunks. rewrite Hlen.
  destruct ((b <=? a) || (length (text_of r) <=? a)) eqn:E.
  { f_equal. unfold substr. apply orb_prop in E.
    destruct E as [E | E]; apply Nat.leb_le in E.
    - now replace (b - a) with 0 by lia.
    - now replace (b - a) with 0 by lia. }
  apply orb_false_iff in E. destruct E as [E1 E2]. apply Nat.leb_gt in E1, E2.
  replace (Nat.min b (length (text_of r))) with b by lia.
  assert (Hst : ck_starts r = starts_from 0 (ck_chunks r)) by (rewrite Hr; reflexivity).
  rewrite Hst. unfold text_of in *.
  destruct (locate _ a Hok E2) as (pre & c1 & post & Heq & Hra).
  assert (Hfa : find_chunk (starts_from 0 (ck_chunks r)) a = length pre).
  { rewrite Heq. apply find_chunk_locate; [now rewrite <- Heq | assumption]. }
  rewrite Hfa.
  (* the chunk in which the range ends *)
  assert (Hend : exists pre2 c2 post2, ck_chunks r = pre2 ++ c2 :: post2 /\
            find_chunk (starts_from 0 (ck_chunks r)) b = length pre2 /\
            length (concat pre2) <= b <= length (concat pre2) + length c2 /\
            is_boundary c2 (b - length (concat pre2)) = true /\
            (length (concat pre2) + length c2 = b -> post2 = [])).
  { destruct (Nat.eq_dec b (length (concat (ck_chunks r)))) as [Hbe | Hbe].
    - destruct (exists_last (l := ck_chunks r)) as (pre2 & c2 & Hpc).
      { intros Hn. rewrite Hn in Heq. destruct pre; discriminate. }
      exists pre2, c2, []. split; [assumption|].
      assert (Hl2 : length (concat (ck_chunks r)) = length (concat pre2) + length c2).
      { rewrite Hpc, concat_app, app_length. simpl. now rewrite app_nil_r. }
      split; [rewrite Hbe, Hpc; apply find_chunk_end; now rewrite <- Hpc|].
      split; [lia|]. split; [|auto].
      replace (b - length (concat pre2)) with (length c2) by lia. apply is_boundary_length.
    - destruct (locate _ b Hok ltac:(lia)) as (pre2 & c2 & post2 & Heq2 & Hrb).
      exists pre2, c2, post2. split; [assumption|].
      split; [rewrite Heq2; apply find_chunk_locate; [now rewrite <- Heq2 | assumption]|].
      split; [lia|]. split; [|lia].
      rewrite <- (boundary_in_chunk pre2 c2 post2); [| now rewrite <- Heq2 | assumption].
      now rewrite <- Heq2. }
  destruct Hend as (pre2 & c2 & post2 & Heq2 & Hfb & Hrb & Hbb2 & _). rewrite Hfb.
  assert (Hba1 : is_boundary c1 (a - length (concat pre)) = true).
  { rewrite <- (boundary_in_chunk pre c1 post); [| now rewrite <- Heq | assumption]. now rewrite <- Heq. }
  destruct (length pre =? length pre2) eqn:E3.
  - apply Nat.eqb_eq in E3. rewrite Heq in Heq2.
    apply app_inj_length in Heq2; [|assumption]. destruct Heq2 as [<- Heq2]. inv Heq2.
    rewrite Heq. rewrite starts_nth_mid, nth_error_mid.
    rewrite str_get_ok by (assumption || lia).
    f_equal. unfold substr. rewrite concat_app. cbn [concat].
    rewrite skipn_app_ge by lia.
    rewrite skipn_app_le by lia.
    rewrite firstn_app_le by (rewrite skipn_length; lia).
    f_equal. lia.
  - apply Nat.eqb_neq in E3.
    assert (Hlt : length pre < length pre2).
    { destruct (Nat.lt_ge_cases (length pre) (length pre2)); [assumption|]. exfalso.
      assert (Hlt2 : length pre2 < length pre) by lia.
      (* then c2 lies inside pre, so b <= |concat pre| <= a *)
      assert (Hp : pre = pre2 ++ c2 :: skipn (S (length pre2)) pre).
      { assert (Hf : firstn (length pre) (pre2 ++ c2 :: post2) = pre).
        { rewrite <- Heq2, Heq. apply firstn_app_exact. }
        rewrite firstn_app_ge in Hf by lia.
        destruct (length pre - length pre2) as [| k] eqn:Ek; [lia|]. simpl in Hf.
        rewrite <- Hf at 2. rewrite skipn_app_ge by lia.
        replace (S (length pre2) - length pre2) with 1 by lia. simpl. now rewrite Hf. }
      assert (length (concat pre2) + length c2 <= length (concat pre)).
      { rewrite Hp, concat_app, app_length. simpl. rewrite app_length. lia. }
      lia. }
    (* decompose: chunks = pre ++ c1 :: mid ++ c2 :: post2 *)
    assert (Hmid : exists mid, pre2 = pre ++ c1 :: mid /\ post = mid ++ c2 :: post2).
    { assert (Hf : firstn (length pre2) (pre ++ c1 :: post) = pre2).
      { rewrite <- Heq, Heq2. apply firstn_app_exact. }
      assert (Hs : skipn (length pre2) (pre ++ c1 :: post) = c2 :: post2).
      { rewrite <- Heq, Heq2. apply skipn_app_exact. }
      rewrite firstn_app_ge in Hf by lia. rewrite skipn_app_ge in Hs by lia.
      destruct (length pre2 - length pre) as [| k] eqn:Ek; [lia|]. simpl in Hf, Hs.
      exists (firstn k post). split; [now rewrite Hf|]. rewrite <- Hs. now rewrite firstn_skipn. }
    destruct Hmid as (mid & Hp2 & Hpost).
    assert (Hl2 : length pre2 = length pre + S (length mid)) by (rewrite Hp2, app_length; simpl; lia).
    assert (Hsel : firstn (length pre2 - length pre + 1) (skipn (length pre) (ck_chunks r)) = c1 :: mid ++ [c2]).
    { rewrite Heq, skipn_app_exact, Hpost.
      replace (length pre2 - length pre + 1) with (S (length mid + 1)) by lia. cbn [firstn]. f_equal.
      rewrite firstn_app_ge by lia. f_equal. replace (length mid + 1 - length mid) with 1 by lia. reflexivity. }
    rewrite Hsel. cbn [copy_segments].
    assert (Hs1 : nth_error (starts_from 0 (ck_chunks r)) (length pre) = Some (length (concat pre))).
    { rewrite Heq. apply starts_nth_mid. }
    assert (Hs2 : nth_error (starts_from 0 (ck_chunks r)) (length pre2) = Some (length (concat pre2))).
    { rewrite Heq2. apply starts_nth_mid. }
    rewrite Hs1, Nat.eqb_refl. replace (length pre =? length pre2) with false by lia.
    rewrite copy_segments_tail; [| | lia | lia |].
    + rewrite Hs2. rewrite str_get_ok; [| lia | lia | assumption | apply is_boundary_length].
      rewrite str_get_ok; [| lia | lia | reflexivity | assumption].
      f_equal. rewrite Heq, Hpost. rewrite concat_app. cbn [concat]. rewrite concat_app. cbn [concat].
      unfold substr. rewrite skipn_app_ge by lia. rewrite skipn_app_le by lia.
      assert (Hcp2 : length (concat pre2) = length (concat pre) + length c1 + length (concat mid)).
      { rewrite Hp2, concat_app, app_length. cbn [concat]. rewrite app_length. lia. }
      rewrite (firstn_all2 (skipn (a - length (concat pre)) c1)) by (rewrite skipn_length; lia).
      rewrite firstn_app_ge by (rewrite skipn_length; lia).
      f_equal. rewrite skipn_length.
      rewrite firstn_app_ge by lia. f_equal.
      cbn [skipn].
      rewrite firstn_app_le by lia. f_equal. lia.
    + intros k Hk. apply nth_error_Some. rewrite starts_from_length, Heq2, app_length. simpl. lia.
    + intros x Hx. rewrite Heq, Hpost in Hok. apply Forall_app in Hok. destruct Hok as [_ Hok].
      inv Hok. apply Forall_app in H2. destruct H2 as [H2 _].
      rewrite Forall_forall in H2. now apply H2.
Qed.

Lemma flat_text_in_spec : forall s a b,
  a <= b -> b <= length s -> is_boundary s a = true -> is_boundary s b = true ->
  flat_text_in s a b = substr s a b.
Proof. intros. unfold flat_text_in. now rewrite str_get_ok. Qed.

Lemma flat_chunk_at_spec : forall s off,
  off < length s -> is_boundary s off = true ->
  flat_chunk_at s off = (off, skipn off s).
Proof.
  intros s off H Hb. unfold flat_chunk_at, str_get_from.
  replace (length s <=? off) with false by lia. rewrite Hb.
  now replace (off <=? length s) with true by lia.
Qed.

(** ** Streaming *)

Lemma push_chunk_rebuild : forall l c, push_chunk (rebuild l) c = rebuild (l ++ [c]).
Proof.
  intros l c. unfold push_chunk, rebuild. cbn [ck_chunks ck_starts ck_len].
  rewrite starts_from_app. simpl. rewrite !total_len_concat, concat_app, app_length.
  simpl. now rewrite app_nil_r.
Qed.

Lemma push_chunks_rebuild : forall cs l, fold_left push_chunk cs (rebuild l) = rebuild (l ++ cs).
Proof.
  induction cs as [| c cs IH]; intros l; simpl.
  - now rewrite app_nil_r.
  - rewrite push_chunk_rebuild, IH. now rewrite <- app_assoc.
Qed.

Lemma push_str_spec : forall csz b t,
  wf_chunked b -> valid t ->
  exists b', push_str csz b t = Some b' /\ wf_chunked b' /\ text_of b' = text_of b ++ t.
Proof.
  intros csz b t Hwf Ht. unfold push_str. destruct t as [| x t].
  - exists b. rewrite app_nil_r. auto.
  - remember (x :: t) as tt. destruct (chunkify_spec csz tt Ht) as (cs & H1 & H2 & H3).
    rewrite H1. eexists. split; [reflexivity|].
    rewrite (wf_eq b Hwf) at 1 2. rewrite push_chunks_rebuild.
    destruct Hwf as (Hok & _). split.
    + apply wf_rebuild. now apply Forall_app.
    + unfold text_of. simpl. now rewrite concat_app, H2.
Qed.

Lemma stream_fold : forall csz ops b snaps,
  wf_chunked b -> Forall wf_chunked snaps -> ops_valid ops ->
  exists b' snaps', fold_left (stream_step csz) ops (Some (b, snaps)) = Some (b', snaps') /\
    wf_chunked b' /\ Forall wf_chunked snaps' /\
    text_of b' = text_of b ++ pushed ops /\
    map text_of snaps' = map text_of snaps ++ snapshot_texts (text_of b) ops.
Proof.
  intros csz ops. induction ops as [| op ops IH]; intros b snaps Hb Hs Hv.
  - exists b, snaps. simpl. rewrite !app_nil_r. auto.
  - inv Hv. destruct op as [t |].
    + destruct (push_str_spec csz b t Hb H1) as (b1 & Hp & Hw & Ht).
      cbn [fold_left stream_step]. rewrite Hp.
      destruct (IH b1 snaps Hw Hs H2) as (b' & s' & Hf & Hw' & Hs' & Ht' & Hm).
      exists b', s'. rewrite Hf. cbn [pushed snapshot_texts].
      split; [reflexivity|]. split; [assumption|]. split; [assumption|]. split.
      * now rewrite Ht', Ht, app_assoc.
      * now rewrite Hm, Ht.
    + cbn [fold_left stream_step].
      destruct (IH b (snaps ++ [b]) Hb) as (b' & s' & Hf & Hw' & Hs' & Ht' & Hm); auto.
      { apply Forall_app. auto. }
      exists b', s'. rewrite Hf. cbn [pushed snapshot_texts].
      split; [reflexivity|]. split; [assumption|]. split; [assumption|]. split; [assumption|].
      rewrite Hm, map_app. simpl. now rewrite <- app_assoc.
Qed.

Lemma wf_buffer_new : wf_chunked buffer_new.
Proof. exact (wf_rebuild [] (Forall_nil _)). Qed.

Lemma stream_run_spec : forall csz ops,
  ops_valid ops ->
  exists b snaps, stream_run csz ops = Some (b, snaps) /\
    wf_chunked b /\ Forall wf_chunked snaps /\
    text_of b = pushed ops /\ map text_of snaps = snapshot_texts [] ops.
Proof.
  intros csz ops H. destruct (stream_fold csz ops buffer_new [] wf_buffer_new (Forall_nil _) H)
    as (b & s & H1 & H2 & H3 & H4 & H5).
  exists b, s. auto.
Qed.

(** ** Lemmas stated for the property file *)

Lemma legal_batch_lemma : forall csz r es,
  wf_chunked r -> Forall (edit_ok (text_of r)) es -> compatible es ->
  exists r' rg, rope_apply csz r es = Some (r', rg) /\ wf_chunked r' /\
    text_of r' = simultaneous (text_of r) es.
Proof.
  intros csz r es Hwf Hok Hc.
  assert (Hv : valid (text_of r)) by (destruct Hwf as (H & _); now apply chunks_valid).
  destruct (apply_edits_compatible _ es Hv Hok Hc) as [rg Hrg].
  assert (Ht : Forall (fun e => valid (e_text e)) es).
  { eapply Forall_impl; [| exact Hok]. now intros e (_ & _ & _ & _ & Ht). }
  destruct (rope_apply_spec csz r es _ rg Hwf Ht Hrg) as (r' & H1 & H2 & H3).
  exists r', rg. auto.
Qed.

Lemma chunk_size_lemma : forall csz text cs,
  4 <= csz -> valid text -> chunkify csz text = Some cs ->
  concat cs = text /\ Forall (fun c => 1 <= length c <= csz) cs.
Proof.
  intros csz text cs H4 Hv H. pose proof (chunkify_size csz text cs H4 Hv H) as Hs.
  destruct (chunkify_spec csz text Hv) as (cs' & H1 & H2 & H3). rewrite H in H1. inv H1.
  split; [reflexivity|]. rewrite Forall_forall in *. intros c Hc.
  specialize (Hs c Hc). destruct (H3 c Hc) as [Hne _]. destruct c; [congruence | simpl in *; lia].
Qed.

Lemma sources_agree_lemma : forall r a b,
  wf_chunked r -> b <= length (text_of r) ->
  is_boundary (text_of r) a = true -> is_boundary (text_of r) b = true ->
  text_in_chunks r a b = Some (flat_text_in (text_of r) a b).
Proof.
  intros r a b Hwf Hb H1 H2. destruct (Nat.le_gt_cases a b) as [Hab | Hab].
  - rewrite text_in_chunks_spec by assumption. now rewrite flat_text_in_spec.
  - unfold text_in_chunks, flat_text_in, str_get.
    replace (b <=? a) with true by lia. now replace (a <=? b) with false by lia.
Qed.

Ltac wf_closed :=
  apply wf_rebuild; repeat constructor; try discriminate;
  apply validb_valid; vm_compute; reflexivity.

Lemma sources_past_end_refuted : exists r a b,
  wf_chunked r /\ text_in_chunks r a b = Some (lit "bc") /\ flat_text_in (text_of r) a b = [].
Proof.
  exists (rebuild [lit "abc"]), 1, 10. split; [wf_closed|]. split; vm_compute; reflexivity.
Qed.

Lemma sources_off_boundary_refuted : exists r1 r2 a b,
  wf_chunked r1 /\ wf_chunked r2 /\ text_of r1 = text_of r2 /\
  text_in_chunks r1 a b = Some [] /\ text_in_chunks r2 a b = Some (lit "bc").
Proof.
  exists (rebuild [lit "ébc"]), (rebuild [lit "é"; lit "bc"]), 1, 4.
  split; [wf_closed|]. split; [wf_closed|]. split; [reflexivity|]. split; vm_compute; reflexivity.
Qed.

Lemma off_boundary_refuted_lemma : exists csz r e,
  wf_chunked r /\ e_end e <= length (text_of r) /\ valid (e_text e) /\
  apply_edits_range (text_of r) [e] = None /\
  text_of r = lit "éabcdef" /\ e_end e = 1 /\
  exists r' rg, rope_apply csz r [e] = Some (r', rg) /\ text_of r' = [].
Proof.
  exists CHUNK_SIZE, (rebuild [lit "éabcdef"]), (Edit 0 1 []).
  split; [wf_closed|]. split; [vm_compute; lia|]. split; [apply valid_nil|].
  split; [vm_compute; reflexivity|]. split; [reflexivity|]. split; [reflexivity|].
  eexists _, _. split; [vm_compute; reflexivity | reflexivity].
Qed.
