(** Edits off character boundaries: the flat text refuses them, the rope moves
    them to the end of a chunk. *)
From Verif Require Import Base Utf8 Utf8Facts EditModel EditSpec EditProofs RopeModel RopeSpec
  RopeProofs OffSpec.

(** ** Seams *)

Lemma seam_app : forall a b o,
  seam (a ++ b) o <-> seam a o \/ exists o', o = length (concat a) + o' /\ seam b o'.
Proof.
  intros a b o. split.
  - intros (p & q & H & ->). apply app_eq_app in H. destruct H as (l & [[H1 H2] | [H1 H2]]).
    + left. exists p, l. split; [assumption | reflexivity].
    + right. subst p. exists (length (concat l)). split.
      * now rewrite concat_app, app_length.
      * exists l, q. split; [assumption | reflexivity].
  - intros [(p & q & -> & ->) | (o' & -> & p & q & -> & ->)].
    + exists p, (q ++ b). split; [now rewrite app_assoc | reflexivity].
    + exists (a ++ p), q. split; [now rewrite app_assoc | now rewrite concat_app, app_length].
Qed.

Lemma seam_cons : forall c l o,
  seam (c :: l) o <-> o = 0 \/ exists o', o = length c + o' /\ seam l o'.
Proof.
  intros c l o. split.
  - intros (p & q & H & ->). destruct p as [| d p]; [now left|].
    injection H as <- ->. right. exists (length (concat p)). split.
    + cbn [concat]. now rewrite app_length.
    + now exists p, q.
  - intros [-> | (o' & -> & p & q & -> & ->)].
    + now exists [], (c :: l).
    + exists (c :: p), q. split; [reflexivity|]. cbn [concat]. now rewrite app_length.
Qed.

Lemma seam_le : forall l o, seam l o -> o <= length (concat l).
Proof. intros l o (p & q & -> & ->). rewrite concat_app, app_length. lia. Qed.

Lemma chunks_valid : forall l, Forall chunk_ok l -> valid (concat l).
Proof.
  induction l as [| c l IH]; intros H; [apply valid_nil|].
  inv H. destruct H2 as [_ Hv]. cbn [concat]. apply valid_app; [assumption | now apply IH].
Qed.

Lemma seam_boundary : forall l o,
  Forall chunk_ok l -> seam l o -> is_boundary (concat l) o = true.
Proof.
  intros l o Hok (p & q & -> & ->). apply Forall_app in Hok. destruct Hok as [_ Hq].
  rewrite concat_app. apply is_boundary_app. now apply chunks_valid.
Qed.

(** ** Splitting anywhere *)

Lemma split_any : forall l off,
  Forall chunk_ok l -> off <= length (concat l) ->
  exists l', split_at (rebuild l) off = Some (rebuild l') /\
    Forall chunk_ok l' /\ concat l' = concat l /\
    (forall o, seam l' o <-> seam l o \/ (is_boundary (concat l) off = true /\ o = off)).
Proof.
  intros l off Hok Hle.
  unfold split_at. cbn [ck_len rebuild]. rewrite total_len_concat.
  destruct ((off =? 0) || (length (concat l) <=? off)) eqn:E.
  - exists l. split; [reflexivity|]. split; [assumption|]. split; [reflexivity|].
    intros o. split; [now left|]. intros [H | [_ ->]]; [assumption|].
    apply orb_prop in E. destruct E as [E | E].
    + apply Nat.eqb_eq in E. subst. now exists [], l.
    + apply Nat.leb_le in E. exists l, []. split; [now rewrite app_nil_r | lia].
  - apply orb_false_iff in E. destruct E as [E1 E2].
    apply Nat.eqb_neq in E1. apply Nat.leb_gt in E2.
    destruct (locate l off Hok E2) as (pre & c & post & -> & Hr).
    rewrite chunk_index_locate by assumption. cbn [ck_chunks rebuild].
    rewrite nth_error_mid.
    destruct ((off - length (concat pre) =? 0) || (length c <=? off - length (concat pre))) eqn:E3.
    + exists (pre ++ c :: post). split; [reflexivity|]. split; [assumption|].
      split; [reflexivity|]. intros o. split; [now left|].
      intros [H | [_ ->]]; [assumption|]. exists pre, (c :: post). split; [reflexivity | lia].
    + rewrite boundary_in_chunk by assumption.
      set (rel := off - length (concat pre)) in *.
      assert (Hrel : 0 < rel < length c) by lia.
      destruct (is_boundary c rel) eqn:Hb.
      2:{ exists (pre ++ c :: post). unfold str_get. rewrite Hb, andb_false_r.
          split; [reflexivity|]. split; [assumption|]. split; [reflexivity|].
          intros o. split; [now left|]. now intros [H | [H _]]. }
      pose proof Hok as Hok0.
      apply Forall_app in Hok. destruct Hok as [Hp Hc]. inv Hc. destruct H1 as [Hne Hcv].
      rewrite str_get_ok by (auto; lia).
      unfold str_get_from. replace (rel <=? length c) with true by lia. rewrite Hb. cbn [andb].
      destruct (valid_split c rel Hcv Hb) as [Hv1 Hv2].
      assert (Hl1 : length (substr c 0 rel) = rel) by (rewrite substr_length; lia).
      assert (Hl2 : length (skipn rel c) = length c - rel) by apply skipn_length.
      assert (Hs1 : substr c 0 rel = firstn rel c) by (unfold substr; now rewrite Nat.sub_0_r).
      assert (Hn1 : is_nil (substr c 0 rel) = false).
      { destruct (substr c 0 rel); [simpl in Hl1; lia | reflexivity]. }
      assert (Hn2 : is_nil (skipn rel c) = false).
      { destruct (skipn rel c); [simpl in Hl2; lia | reflexivity]. }
      rewrite Hn1, Hn2. cbn [orb].
      rewrite firstn_app_exact.
      replace (skipn (S (length pre)) (pre ++ c :: post)) with post.
      2:{ rewrite skipn_app_ge by lia. now replace (S (length pre) - length pre) with 1 by lia. }
      exists (pre ++ substr c 0 rel :: skipn rel c :: post).
      split; [reflexivity|]. split.
      { apply Forall_app. split; [assumption|].
        constructor; [split; [destruct (substr c 0 rel); [discriminate|congruence] | now rewrite Hs1]|].
        constructor; [split; [destruct (skipn rel c); [discriminate|congruence] | assumption]|].
        assumption. }
      split.
      { rewrite !concat_app. simpl. rewrite Hs1, (app_assoc (firstn rel c)), firstn_skipn. reflexivity. }
      intros o. rewrite !seam_app. split.
      * intros [H | (o1 & -> & H)]; [now left; left|].
        apply seam_cons in H. destruct H as [-> | (o2 & -> & H)].
        { left. right. exists 0. split; [reflexivity|]. apply seam_cons. now left. }
        apply seam_cons in H. destruct H as [-> | (o3 & -> & H)].
        { right. split; [reflexivity|]. lia. }
        left. right. exists (length c + o3). split; [lia|]. apply seam_cons. right. now exists o3.
      * intros [[H | (o1 & -> & H)] | [_ ->]].
        { now left. }
        { right. exists o1. split; [reflexivity|]. apply seam_cons in H. apply seam_cons.
          destruct H as [-> | (o2 & -> & H)]; [now left|]. right.
          exists (length (skipn rel c) + o2). split; [lia|]. apply seam_cons. right. now exists o2. }
        right. exists rel. split; [lia|]. apply seam_cons. right. exists 0. split; [lia|].
        apply seam_cons. now left.
Qed.

(** [boundary_index] finds the first seam from the offset on. *)
Lemma index_any : forall l off,
  Forall chunk_ok l -> off <= length (concat l) ->
  exists p q, l = p ++ q /\ boundary_index (rebuild l) off = length p /\
    off <= length (concat p) /\
    (forall o, seam l o -> off <= o -> length (concat p) <= o).
Proof.
  intros l off Hok Hle.
  destruct (Nat.eq_dec off (length (concat l))) as [-> | Hne].
  - exists l, []. split; [now rewrite app_nil_r|]. split.
    + rewrite <- (app_nil_r l) at 1. apply boundary_index_border; [now rewrite app_nil_r | reflexivity].
    + split; [lia|]. intros; lia.
  - destruct (locate l off Hok ltac:(lia)) as (pre & c & post & -> & Hr).
    destruct (Nat.eq_dec off (length (concat pre))) as [-> | Hne2].
    + exists pre, (c :: post). split; [reflexivity|].
      split; [now apply boundary_index_border|]. split; [lia|]. intros; lia.
    + exists (pre ++ [c]), post. split; [now rewrite <- app_assoc|]. split.
      * unfold boundary_index. cbn [ck_len ck_chunks ck_starts rebuild].
        rewrite total_len_concat.
        replace (length (concat (pre ++ c :: post)) <=? off) with false.
        2:{ symmetry. apply Nat.leb_gt. lia. }
        rewrite bsearch_locate by assumption.
        replace (off =? length (concat pre)) with false by lia.
        rewrite app_length. cbn [length]. lia.
      * rewrite concat_app, app_length. cbn [concat]. rewrite app_nil_r. split; [lia|].
        intros o Ho Hoff. apply seam_app in Ho. destruct Ho as [Ho | (o1 & -> & Ho)].
        { apply seam_le in Ho. lia. }
        apply seam_cons in Ho. destruct Ho as [-> | (o2 & -> & _)]; lia.
Qed.

(** ** Every edit of a rope *)

Lemma lands_total : forall l off,
  Forall chunk_ok l -> off <= length (concat l) -> exists off', lands l off off'.
Proof.
  intros l off Hok Hle. destruct (is_boundary (concat l) off) eqn:E.
  - exists off. left. split; [exact E | reflexivity].
  - destruct (index_any l off Hok Hle) as (p & q & Hl & _ & H1 & H2).
    exists (length (concat p)). right. split; [exact E|].
    split; [now exists p, q|]. split; assumption.
Qed.

Lemma lands_ge : forall l off off', lands l off off' -> off <= off'.
Proof. intros l off off' [[_ ->] | (_ & _ & H & _)]; lia. Qed.

Lemma rope_replace_any : forall csz l a b t a' b',
  Forall chunk_ok l -> valid t ->
  lands l (Nat.min a (length (concat l))) a' ->
  lands l (Nat.max (Nat.min b (length (concat l))) (Nat.min a (length (concat l)))) b' ->
  exists l', rope_replace csz (rebuild l) a b t = Some (rebuild l') /\
    Forall chunk_ok l' /\
    concat l' = firstn (Nat.min a' b') (concat l) ++ t ++ skipn b' (concat l).
Proof.
  intros csz l a b t a' b' Hok Ht Ha Hb.
  unfold rope_replace. cbn [ck_len rebuild]. rewrite total_len_concat.
  set (start := Nat.min a (length (concat l))) in *.
  set (end_ := Nat.max (Nat.min b (length (concat l))) start) in *.
  assert (Hse : start <= end_ /\ end_ <= length (concat l)) by (unfold end_, start; lia).
  clearbody start end_.
  destruct (split_any l start Hok ltac:(lia)) as (l1 & H1 & Hok1 & Hc1 & Hs1).
  rewrite H1.
  destruct (split_any l1 end_ Hok1 ltac:(rewrite Hc1; lia)) as (l2 & H2 & Hok2 & Hc2 & Hs2).
  rewrite H2. rewrite Hc1 in Hc2, Hs2.
  destruct (index_any l2 start Hok2 ltac:(rewrite Hc2; lia)) as (pa & qa & Hpa & Hia & Hga & Hma).
  destruct (index_any l2 end_ Hok2 ltac:(rewrite Hc2; lia)) as (pb & qb & Hpb & Hib & Hgb & Hmb).
  cbn [ck_chunks rebuild]. rewrite Hia, Hib.
  assert (Sa : seam l2 (length (concat pa))) by now exists pa, qa.
  assert (Sb : seam l2 (length (concat pb))) by now exists pb, qb.
  assert (Hxb : length (concat pb) = b').
  { destruct Hb as [[Eb ->] | (Eb & Kb & Lb & Mb)].
    - assert (K : seam l2 end_) by (apply Hs2; right; auto).
      specialize (Hmb _ K). lia.
    - assert (K : seam l2 b') by (apply Hs2; left; apply Hs1; now left).
      pose proof (Hmb _ K Lb). apply Hs2 in Sb. destruct Sb as [Sb | [Sb _]]; [|congruence].
      apply Hs1 in Sb. destruct Sb as [Sb | [Sb Eq]].
      + specialize (Mb _ Sb Hgb). lia.
      + exfalso. assert (end_ = start) by lia. congruence. }
  assert (Hxa : length (concat pa) = Nat.min a' b').
  { pose proof (lands_ge _ _ _ Hb) as Lb0.
    pose proof (Hma _ Sb ltac:(lia)) as Hab.
    destruct Ha as [[Ea ->] | (Ea & Ka & La & Ma)].
    - assert (K : seam l2 start) by (apply Hs2; left; apply Hs1; right; auto).
      specialize (Hma _ K). lia.
    - assert (K : seam l2 a') by (apply Hs2; left; apply Hs1; now left).
      pose proof (Hma _ K La). apply Hs2 in Sa. destruct Sa as [Sa | [Sa Eq]].
      + apply Hs1 in Sa. destruct Sa as [Sa | [Sa _]]; [|congruence].
        specialize (Ma _ Sa Hga). lia.
      + destruct Hb as [[_ Eb] | [Eb _]]; [lia | congruence]. }
  assert (Hta : concat pa = firstn (Nat.min a' b') (concat l)).
  { rewrite <- Hc2, Hpa, concat_app. symmetry. now apply firstn_app_exact'. }
  assert (Htb : concat qb = skipn b' (concat l)).
  { rewrite <- Hc2, Hpb, concat_app. symmetry. now apply skipn_app_exact'. }
  set (chunks1 := if length pa <? length pb
                  then firstn (length pa) l2 ++ skipn (length pb) l2 else l2).
  assert (Hch1 : chunks1 = pa ++ qb).
  { unfold chunks1. destruct (length pa <? length pb) eqn:El.
    - rewrite Hpa at 1. rewrite firstn_app_exact. rewrite Hpb. now rewrite skipn_app_exact.
    - apply Nat.ltb_ge in El.
      assert (length (concat pa) = length (concat pb)).
      { destruct (Nat.eq_dec (length (concat pa)) (length (concat pb))) as [|Hne]; [assumption|].
        pose proof (border_idx_le pa qa pb qb ltac:(now rewrite <- Hpa) ltac:(congruence) ltac:(lia)). lia. }
      destruct (border_idx_eq pa qa pb qb) as [-> ->]; auto; try congruence. }
  assert (Hok3 : Forall chunk_ok pa /\ Forall chunk_ok qb).
  { split.
    - rewrite Hpa in Hok2. apply Forall_app in Hok2. tauto.
    - rewrite Hpb in Hok2. apply Forall_app in Hok2. tauto. }
  destruct Hok3 as [Hpa' Hqb].
  destruct t as [| t0 t].
  - rewrite Hch1. exists (pa ++ qb). split; [reflexivity|]. split; [now apply Forall_app|].
    rewrite concat_app, Hta, Htb. reflexivity.
  - remember (t0 :: t) as tt eqn:Ett.
    destruct (chunkify_spec csz tt Ht) as (cs & Hcs & Hcc & Hcok). rewrite Hcs.
    rewrite Hch1. rewrite app_length.
    replace (Nat.min (length pa) (length pa + length qb)) with (length pa) by lia.
    rewrite firstn_app_exact, skipn_app_exact.
    exists (pa ++ cs ++ qb). split; [reflexivity|]. split.
    + apply Forall_app. split; [assumption|]. now apply Forall_app.
    + now rewrite !concat_app, Hta, Htb, Hcc.
Qed.

Lemma rope_edit_any : forall csz r e,
  wf_chunked r -> valid (e_text e) ->
  exists a' b' r' rg,
    lands (ck_chunks r) (Nat.min (e_start e) (length (text_of r))) a' /\
    lands (ck_chunks r)
      (Nat.max (Nat.min (e_end e) (length (text_of r))) (Nat.min (e_start e) (length (text_of r)))) b' /\
    rope_apply csz r [e] = Some (r', rg) /\ wf_chunked r' /\
    text_of r' = firstn (Nat.min a' b') (text_of r) ++ e_text e ++ skipn b' (text_of r).
Proof.
  intros csz r e Hwf Ht. pose proof (wf_eq r Hwf) as Hr. destruct Hwf as (Hok & _).
  unfold text_of.
  destruct (lands_total (ck_chunks r) (Nat.min (e_start e) (length (concat (ck_chunks r)))) Hok
              ltac:(lia)) as (a' & Ha).
  destruct (lands_total (ck_chunks r)
    (Nat.max (Nat.min (e_end e) (length (concat (ck_chunks r))))
             (Nat.min (e_start e) (length (concat (ck_chunks r))))) Hok ltac:(lia)) as (b' & Hb).
  destruct (rope_replace_any csz _ _ _ _ _ _ Hok Ht Ha Hb) as (l' & H1 & H2 & H3).
  rewrite <- Hr in H1.
  unfold rope_apply. cbn [sort_edits insert_edit fold_left fold_right].
  unfold range_step. rewrite H1.
  exists a', b', (rebuild l'). eexists. split; [exact Ha|]. split; [exact Hb|].
  split; [reflexivity|]. split; [now apply wf_rebuild | exact H3].
Qed.

(** ** The flat text refuses *)

Definition fits (s : str) (e : edit) : Prop :=
  e_start e <= e_end e /\ e_end e <= length s /\
  is_boundary s (e_start e) = true /\ is_boundary s (e_end e) = true.

Lemma boundary_prefix : forall s r n k,
  firstn n r = firstn n s -> k < n -> n <= length s -> n <= length r ->
  is_boundary r k = is_boundary s k.
Proof.
  intros s r n k H Hk Hs Hr. rewrite <- (boundary_firstn r n k), <- (boundary_firstn s n k) by lia.
  now rewrite H.
Qed.

Lemma replace_all_fits : forall s l pos r,
  chain pos l -> replace_all_rev s l = Some r ->
  Forall (fits s) l /\
  match l with
  | [] => r = s
  | e :: _ => e_start e <= length r /\ firstn (e_start e) r = firstn (e_start e) s
  end.
Proof.
  intros s l. induction l as [| e l IH]; intros pos r Hc H.
  - simpl in H. injection H as <-. split; [constructor | reflexivity].
  - simpl in Hc. destruct Hc as (Hp & Hse & Hc).
    cbn [replace_all_rev fold_right] in H. fold (replace_all_rev s l) in H.
    destruct (replace_all_rev s l) as [r1|] eqn:E; [|discriminate].
    destruct (IH _ _ Hc eq_refl) as [Hf Hh]. clear IH.
    unfold replace_range in H.
    destruct ((e_start e <=? e_end e) && (e_end e <=? length r1) && is_boundary r1 (e_start e)
              && is_boundary r1 (e_end e)) eqn:G; [|discriminate].
    injection H as <-.
    apply andb_prop in G. destruct G as [G G4]. apply andb_prop in G. destruct G as [G G3].
    apply andb_prop in G. destruct G as [G1 G2]. apply Nat.leb_le in G1, G2.
    assert (K : fits s e /\ firstn (e_start e) r1 = firstn (e_start e) s).
    { destruct l as [| e2 l].
      - subst r1. split; [|reflexivity]. now repeat split.
      - destruct Hh as [Hl Hh]. simpl in Hc. destruct Hc as (Hc1 & Hc2 & _).
        inversion Hf as [| x y Hf1 Hf2]; subst. destruct Hf1 as (F1 & F2 & F3 & F4).
        assert (B : forall k, k <= e_start e2 -> is_boundary r1 k = true -> is_boundary s k = true).
        { intros k Hk Hb. destruct (Nat.eq_dec k (e_start e2)) as [-> | Hne]; [assumption|].
          rewrite <- Hb. symmetry. apply (boundary_prefix s r1 (e_start e2)); auto; lia. }
        split.
        + repeat split; [lia | lia | apply B; [lia | assumption] | apply B; [lia | assumption]].
        + apply (f_equal (firstn (e_start e))) in Hh. rewrite !firstn_firstn in Hh.
          now replace (Nat.min (e_start e) (e_start e2)) with (e_start e) in Hh by lia. }
    destruct K as [K1 K2]. split; [now constructor|].
    assert (Hlen : length (firstn (e_start e) r1) = e_start e) by (rewrite firstn_length_le; lia).
    split.
    + rewrite app_length. lia.
    + rewrite <- K2. rewrite firstn_app_le by lia. rewrite firstn_firstn.
      now rewrite Nat.min_id.
Qed.

Lemma flat_accepts : forall s es,
  valid s -> Forall (fun e => e_start e <= e_end e /\ valid (e_text e)) es -> compatible es ->
  (apply_edits_range s es <> None <-> Forall (edit_ok s) es).
Proof.
  intros s es Hv Hw Hc. split.
  - intros H. destruct es as [| e es]; [constructor|].
    unfold apply_edits_range in H.
    destruct (fold_left range_step (sort_edits (e :: es)) (length s, 0%Z, 0%Z)) as [[from to] d].
    destruct (replace_all_rev s (sort_edits (e :: es))) as [r|] eqn:E; [|congruence].
    assert (Hch : chain 0 (sort_edits (e :: es))).
    { apply compatible_chain; [assumption|]. intros x Hx. rewrite Forall_forall in Hw.
      now destruct (Hw x Hx). }
    destruct (replace_all_fits _ _ _ _ Hch E) as [Hf _].
    assert (Hf' : Forall (fits s) (e :: es)) by (eapply Forall_perm; [apply sort_edits_perm | exact Hf]).
    rewrite Forall_forall in *. intros x Hx. destruct (Hf' x Hx) as (F1 & F2 & F3 & F4).
    destruct (Hw x Hx) as [_ W]. now repeat split.
  - intros H. destruct (apply_edits_compatible s es Hv H Hc) as [rg ->]. discriminate.
Qed.
