From Verif Require Import Base Utf8 Utf8Facts EditModel EditSpec EditProofs LexModel TreeModel TreeSpec TreeProofs
  ParserModel ParserSpec.

(** ** Generic *)
Lemma as_u32_id : forall n, (Z.of_nat n < 2 ^ 32)%Z -> as_u32 n = n.
Proof.
  intros n H. unfold as_u32. rewrite N.mod_small by lia. apply Nnat.Nat2N.id.
Qed.

Lemma yield_width : forall t, list_sum (map snd (yield t)) = width t.
Proof.
  induction t as [k n m | k n ch IH] using green_ind'; [cbn; lia|].
  cbn [yield width]. induction IH as [|c r Hc Hr IHr]; [reflexivity|].
  cbn [flat_map map]. rewrite map_app, list_sum_app, list_sum_cons, Hc, IHr. reflexivity.
Qed.

Lemma yield_node : forall k n ch, yield (GNode k n ch) = flat_map yield ch.
Proof. reflexivity. Qed.

Lemma skipn_nth : forall {A} i (l : list A) x, nth_error l i = Some x -> skipn i l = x :: skipn (S i) l.
Proof. induction i; destruct l; cbn; intros; try discriminate; [congruence | now apply IHi]. Qed.

(** ** Places in the old tree *)
Lemma built_fits : forall k n ch, built (GNode k n ch) ->
  Forall built ch /\ new_node k ch = Some (GNode k n ch).
Proof.
  intros k n ch H. inversion H as [| k' ch' t Hf Hnew]. subst. pose proof Hnew as N. unfold new_node in Hnew.
  destruct (fits_u32 (sum_len ch')); [|discriminate]. injection Hnew as E1 E2 E3. subst. auto.
Qed.

Lemma deep_clone_built : forall t, built t -> deep_clone t = Some t.
Proof.
  induction t as [k n m | k n ch IH] using green_ind'; intros H; [reflexivity|]. cbn [deep_clone].
  destruct (built_fits _ _ _ H) as [Hb Hn].
  assert (E : (fix go (l : list green) : option (list green) :=
       match l with
       | [] => Some []
       | c :: r => match deep_clone c, go r with
                   | Some c', Some r' => Some (c' :: r')
                   | _, _ => None
                   end
       end) ch = Some ch).
  { clear Hn H. induction ch as [|x l IHl]; [reflexivity|]. inversion IH; inversion Hb; subst.
    rewrite H1 by assumption. rewrite IHl by assumption. reflexivity. }
  now rewrite E.
Qed.

Lemma lay_in : forall {A} (f : green -> nat -> list A) ch off i c x,
  nth_error ch i = Some c -> In x (f c (off + list_sum (map width (firstn i ch)))) -> In x (lay f off ch).
Proof.
  induction ch as [|y ch IH]; intros off [|i] c x E H; try discriminate; cbn [lay]; apply in_app_iff.
  - left. injection E as ->. cbn in H. now rewrite Nat.add_0_r in H.
  - right. apply (IH _ i c); [exact E|]. rewrite firstn_cons in H. cbn [map] in H.
    rewrite list_sum_cons, Nat.add_assoc in H. exact H.
Qed.

Lemma elements_trans : forall t x o off, In (x, o) (elements t off) ->
  forall y p, In (y, p) (elements x o) -> In (y, p) (elements t off).
Proof.
  induction t as [k n m | k n ch IH] using green_ind'; intros x o off H y p Hy.
  - destruct H as [H|[]]. injection H as <- <-. exact Hy.
  - rewrite elements_eq in H. destruct H as [H|H]; [injection H as <- <-; exact Hy|].
    rewrite elements_eq. right. revert off H. induction ch as [|c r IHr]; intros off H; [destruct H|].
    cbn [lay] in *. inversion IH; subst. apply in_app_iff in H. apply in_app_iff. destruct H as [H|H].
    + left. eapply H2; eauto.
    + right. apply IHr; auto.
Qed.

Lemma at_place_elements : forall root c, at_place root c -> In (tc_current c, tc_offset c) (elements root 0).
Proof.
  induction 1 as [| k n ch i c off st H IH E]; cbn [tc_current tc_offset].
  - rewrite elements_eq. now left.
  - eapply elements_trans; [exact IH|]. cbn [tc_current tc_offset]. rewrite elements_eq. right.
    eapply lay_in; [exact E|]. rewrite elements_eq. now left.
Qed.

Lemma elements_inside : forall t x o off, In (x, o) (elements t off) ->
  off <= o /\ o + width x <= off + width t.
Proof.
  induction t as [k n m | k n ch IH] using green_ind'; intros x o off H; rewrite elements_eq in H.
  - destruct H as [H|[]]. injection H as <- <-. lia.
  - destruct H as [H|H]; [injection H as <- <-; lia|]. cbn [width].
    revert off H. induction ch as [|c r IHr]; intros off H; [destruct H|].
    inversion IH; subst. cbn [lay] in H. cbn [map]. rewrite list_sum_cons. apply in_app_iff in H. destruct H as [H|H].
    + apply H2 in H. lia.
    + apply IHr in H; [lia | assumption].
Qed.

Lemma into_or_next_place : forall root c ok c', built root -> at_place root c ->
  into_or_next c = (ok, c') -> at_place root c'.
Proof.
  intros root c ok c' Hb Hp H. unfold into_or_next in H. destruct (step_into c) as [b c1] eqn:E.
  pose proof (step_into_spec _ _ _ _ Hp E) as S1. destruct b.
  - injection H as <- <-. tauto.
  - destruct S1 as [-> _]. pose proof (step_next_spec _ _ _ _ Hb Hp H) as S2.
    destruct ok; [tauto|]. destruct S2 as [-> _]. constructor.
Qed.

Lemma step_next_place : forall root c ok c', built root -> at_place root c ->
  step_next c = (ok, c') -> at_place root c'.
Proof.
  intros root c ok c' Hb Hp H. pose proof (step_next_spec _ _ _ _ Hb Hp H) as S2.
  destruct ok; [tauto|]. destruct S2 as [-> _]. constructor.
Qed.

Lemma step_over_place : forall root c, built root -> at_place root c -> at_place root (snd (step_over c)).
Proof.
  intros root c Hb Hp. destruct (step_over c) as [b c'] eqn:E.
  pose proof (step_over_spec _ _ _ _ Hb Hp E) as S1. cbn [snd].
  destruct b; [tauto|]. destruct S1 as [-> _]. exact Hp.
Qed.

Lemma reuse_loop_spec : forall root kind edits ts np target fuel c hit c',
  built root -> at_place root c -> reuse_loop fuel kind edits ts np target c = (hit, c') ->
  at_place root c' /\
  match hit with
  | None => True
  | Some (g, m) => exists n ch off, g = GNode kind n ch /\ In (g, off) (elements root 0) /\ built g /\
      Z.of_nat off = target /\ is_dirty edits off (off + n) = false /\
      verify_tokens ts 0 np (np + n) = Some m
  end.
Proof.
  intros root kind edits ts np target. induction fuel as [|f IH]; intros c hit c' Hb Hp H.
  - cbn in H. injection H as <- <-. auto.
  - cbn [reuse_loop] in H.
    assert (Next : forall r : bool * tcursor, (let '(ok, c1) := r in if ok then reuse_loop f kind edits ts np target c1 else (None, c1)) = (hit, c') ->
      at_place root (snd r) ->
      at_place root c' /\
      match hit with
      | None => True
      | Some (g, m) => exists n ch off, g = GNode kind n ch /\ In (g, off) (elements root 0) /\ built g /\
          Z.of_nat off = target /\ is_dirty edits off (off + n) = false /\
          verify_tokens ts 0 np (np + n) = Some m
      end).
    { intros [ok c1] Hr Hc. cbn [snd] in Hc. destruct ok; [now apply (IH c1)|]. injection Hr as <- <-. auto. }
    assert (P1 : at_place root (snd (into_or_next c))).
    { destruct (into_or_next c) as [ok c1] eqn:E. exact (into_or_next_place _ _ _ _ Hb Hp E). }
    assert (P2 : at_place root (snd (step_next c))).
    { destruct (step_next c) as [ok c1] eqn:E. exact (step_next_place _ _ _ _ Hb Hp E). }
    destruct (Z.of_nat (tc_offset c) =? target)%Z eqn:E1.
    + apply Z.eqb_eq in E1.
      destruct (match tc_current c with
                | GLeaf _ _ _ => None
                | GNode k n _ => if (k =? kind) && negb (is_dirty edits (tc_offset c) (tc_offset c + glen (tc_current c)))
                                 then verify_tokens ts 0 np (np + n) else None
                end) as [m|] eqn:E2.
      * injection H as <- <-. split; [now apply step_over_place|].
        destruct (at_place_built _ _ Hb Hp) as [Bc _]. pose proof (at_place_elements _ _ Hp) as In1.
        destruct (tc_current c) as [|k n ch]; [discriminate|]. cbn [glen] in E2.
        destruct (Nat.eqb_spec k kind) as [->|]; [|discriminate].
        destruct (is_dirty edits (tc_offset c) (tc_offset c + n)) eqn:D; [discriminate|].
        exists n, ch, (tc_offset c). auto 10.
      * now apply (Next (into_or_next c)).
    + destruct ((Z.of_nat (tc_offset c) <? target)%Z && (target <? Z.of_nat (tc_offset c + glen (tc_current c)))%Z).
      * now apply (Next (into_or_next c)).
      * destruct (Z.of_nat (tc_offset c + glen (tc_current c)) <=? target)%Z.
        -- now apply (Next (step_next c)).
        -- injection H as <- <-. auto.
Qed.

Lemma try_reuse_spec : forall old kind s r s', old_ok old s -> try_reuse kind s = Some (r, s') ->
  old_ok old s' /\
  if r then exists inc c' n ch off m,
      ps_inc s = Some inc /\ In (GNode kind n ch, off) (elements old 0) /\ built (GNode kind n ch) /\
      map_new_to_old (ic_edits inc) 0 (current_offset s) = Some (Z.of_nat off) /\
      is_dirty (ic_edits inc) off (off + n) = false /\
      verify_tokens (to_come s) 0 (current_offset s) (current_offset s + n) = Some m /\
      s' = PState (ps_toks s) (ps_index s + m) (ps_sink s ++ [(Some (ps_next s), GNode kind n ch)]) (S (ps_next s))
             (ps_errs s) (ps_srclen s) (Some (Incremental c' (ic_edits inc)))
  else exists i, s' = set_inc s i.
Proof.
  intros old kind s r s' [Hb Hi] H. unfold try_reuse in H.
  destruct (ps_inc s) as [inc|] eqn:Ei.
  2:{ injection H as <- <-. split; [split; [exact Hb | now rewrite Ei]|]. exists None. destruct s; cbn in *; now subst. }
  destruct (map_new_to_old (ic_edits inc) 0 (current_offset s)) as [target|] eqn:Em.
  2:{ injection H as <- <-. split; [split; [exact Hb | now rewrite Ei]|]. exists (Some inc). destruct s; cbn in *; now subst. }
  fold (to_come s) in H.
  destruct (reuse_loop REUSE_ROUNDS kind (ic_edits inc) (to_come s) (current_offset s) target (ic_cursor inc))
    as [hit c'] eqn:El.
  destruct (reuse_loop_spec _ _ _ _ _ _ _ _ _ _ Hb Hi El) as [Pc Ph].
  destruct hit as [[g m]|].
  - destruct Ph as (n & ch & off & -> & In1 & Bg & <- & D & V).
    rewrite deep_clone_built in H by exact Bg. injection H as <- <-. split; [split; [exact Hb | exact Pc]|].
    exists inc, c', n, ch, off, m. cbn. auto 10.
  - injection H as <- <-. split; [split; [exact Hb | exact Pc]|]. eexists. reflexivity.
Qed.

(** ** Tokens consumed by reuse *)
Lemma verify_spec : forall ts la pos target n, verify_tokens ts la pos target = Some n ->
  Forall (fun t => tk_start t <= tk_end t) ts ->
  exists m, n = la + m /\ 0 < m <= length ts /\ tiles tok_span pos (firstn m ts) target.
Proof.
  induction ts as [|t r IH]; intros la pos target n H Ho; [discriminate|]. cbn [verify_tokens] in H.
  inversion Ho; subst.
  destruct (Nat.eqb_spec (tk_start t) pos) as [<-|]; [|discriminate]. cbn [negb] in H.
  destruct (Nat.eqb_spec (tk_end t) target) as [<-|].
  - injection H as <-. exists 1. cbn. split; [reflexivity|]. split; [lia|].
    apply TCons; [reflexivity | assumption | constructor].
  - destruct (target <? tk_end t); [discriminate|].
    apply IH in H; [|assumption]. destruct H as (m & -> & Hm & T). exists (S m). split; [lia|].
    cbn [length]. split; [lia|]. rewrite firstn_cons. apply TCons; [reflexivity | assumption | exact T].
Qed.

Lemma tiles_sum : forall l a b, tiles tok_span a l b ->
  a + list_sum (map (fun t => snd (tok_yield t)) l) = b /\ a <= b.
Proof.
  intros l a b H. induction H as [a|a t l e H1 H2 H3 IH]; [cbn; lia|].
  cbn [map]. rewrite list_sum_cons. cbn [tok_span fst snd] in *. unfold tok_yield at 1. cbn [snd]. lia.
Qed.

Section Inv.
  Variable (ign : nat -> bool) (toks : list token).
  Hypothesis Hfit : lengths_fit toks.

  Lemma fit_nth : forall i t, nth_error toks i = Some t -> as_u32 (tk_len t) = snd (tok_yield t).
  Proof.
    intros i t H. apply as_u32_id. apply nth_error_In in H.
    unfold lengths_fit in Hfit. rewrite Forall_forall in Hfit. now apply Hfit in H.
  Qed.

  (** What is preserved, for both readings of the input: [Q true] is about kinds, [Q false] about
      lengths only. *)
  Definition good (full : Prop) (s : pstate) : Prop :=
    ps_toks s = toks /\ ps_index s <= length toks /\ Forall built (sink_trees s) /\
    list_sum (map width (sink_trees s)) = list_sum (map (fun t => snd (tok_yield t)) (firstn (ps_index s) toks)) /\
    (full -> in_tree s = map tok_yield (firstn (ps_index s) toks)).

  Lemma firstn_S_nth : forall {A} i (l : list A) x, nth_error l i = Some x ->
    firstn (S i) l = firstn i l ++ [x].
  Proof.
    induction i as [|i IH]; intros [|y l] x H; try discriminate.
    - cbn in *. congruence.
    - rewrite firstn_cons, (IH _ _ H). reflexivity.
  Qed.

  Lemma good_push : forall full s t, good full s -> ps_current s = Some t ->
    good full (set_index (push_leaf s t) (S (ps_index s))).
  Proof.
    intros full s t (Ht & Hi & Hb & Hw & Hy) Hc. unfold ps_current in Hc. rewrite Ht in Hc.
    pose proof (fit_nth _ _ Hc) as Hf.
    unfold good, set_index, push_leaf, set_sink, sink_trees, in_tree in *. cbn [ps_toks ps_index ps_sink].
    split; [exact Ht|]. split; [apply nth_error_Some; congruence|].
    rewrite !map_app. cbn [map snd]. rewrite (firstn_S_nth _ _ _ Hc).
    split; [apply Forall_app; split; [exact Hb | constructor; [apply BLeaf | constructor]]|].
    rewrite !map_app, !list_sum_app. cbn [map width]. rewrite Hf.
    split; [f_equal; exact Hw|].
    intros F. unfold sink_trees in *. cbn [ps_sink]. rewrite map_app, flat_map_app, (Hy F). cbn [map snd flat_map yield app].
    reflexivity.
  Qed.

  Lemma skip_loop_good : forall full n s, good full s -> good full (skip_trivia_loop ign n s).
  Proof.
    induction n as [|n IH]; intros s H; [exact H|]. cbn [skip_trivia_loop].
    destruct (ps_current s) as [t|] eqn:E; [|exact H].
    destruct (ign (tk_kind t)); [|exact H]. apply IH.
    change (ps_index (push_leaf s t)) with (ps_index s). now apply good_push.
  Qed.

  Lemma skip_loop_settled : forall n s, length (ps_toks s) - ps_index s <= n ->
    settled ign (skip_trivia_loop ign n s).
  Proof.
    induction n as [|n IH]; intros s H; cbn [skip_trivia_loop].
    - unfold settled, to_come. rewrite skipn_all2 by lia. exact I.
    - destruct (ps_current s) as [t|] eqn:E.
      + destruct (ign (tk_kind t)) eqn:G.
        * apply IH. unfold set_index, push_leaf, set_sink. cbn [ps_toks ps_index].
          unfold ps_current in E. assert (ps_index s < length (ps_toks s)) by (apply nth_error_Some; congruence).
          lia.
        * unfold settled, to_come. unfold ps_current in E. now rewrite (skipn_nth _ _ _ E).
      + unfold settled, to_come. unfold ps_current in E. apply nth_error_None in E.
        rewrite skipn_all2 by lia. exact I.
  Qed.

  Lemma skip_settled : forall s, settled ign (skip_trivia ign s).
  Proof. intros s. apply skip_loop_settled. lia. Qed.

  Lemma skip_good : forall full s, good full s -> good full (skip_trivia ign s).
  Proof. intros. now apply skip_loop_good. Qed.

  Lemma bump_good : forall full s, good full s -> good full (bump ign s).
  Proof.
    intros full s H. unfold bump. destruct (ps_current s) as [t|] eqn:E; [|exact H].
    unfold ps_advance. apply skip_good.
    change (ps_index (push_leaf s t)) with (ps_index s). now apply good_push.
  Qed.

  Lemma bump_settled : forall s, settled ign s -> settled ign (bump ign s).
  Proof.
    intros s H. unfold bump. destruct (ps_current s); [apply skip_settled | exact H].
  Qed.

  Lemma finish_good : forall full s i k it s', good full s -> finish_at s (0, i) k = Some (it, s') ->
    good full s' /\ ps_index s' = ps_index s /\ i <= length (ps_sink s) /\
    ps_sink s' = firstn i (ps_sink s) ++ [it] /\ ps_inc s' = ps_inc s /\ ps_errs s' = ps_errs s /\
    ps_srclen s' = ps_srclen s /\ ps_toks s' = ps_toks s.
  Proof.
    intros full s i k it s' (Ht & Hi & Hb & Hw & Hy) H. unfold finish_at in H. cbn [snd] in H.
    destruct (Nat.ltb_spec (length (ps_sink s)) i) as [L|L]; [discriminate|].
    destruct (new_node k _) as [g|] eqn:N; [|discriminate]. injection H as <- <-. cbn.
    split; [|repeat split; auto].
    remember (firstn i (ps_sink s)) as pre eqn:Ep. remember (skipn i (ps_sink s)) as post eqn:Eq.
    assert (Hsk : ps_sink s = pre ++ post) by (subst; symmetry; apply firstn_skipn). clear Ep Eq.
    unfold in_tree, sink_trees in *. rewrite Hsk in Hb, Hw, Hy. rewrite map_app in Hb, Hw, Hy.
    rewrite Forall_app in Hb. destruct Hb as [B1 B2]. rewrite map_app, list_sum_app in Hw.
    rewrite flat_map_app in Hy.
    assert (Bg : built g) by (eapply BNode; eauto).
    assert (Hg : width g = list_sum (map width (map snd post)) /\ yield g = flat_map yield (map snd post)).
    { unfold new_node in N. destruct (fits_u32 _); [|discriminate]. injection N as <-.
      now rewrite yield_node. }
    destruct Hg as [Gw Gy].
    unfold good, in_tree, sink_trees. cbn [ps_toks ps_index ps_sink].
    split; [exact Ht|]. split; [exact Hi|]. rewrite !map_app. cbn [map snd].
    split; [apply Forall_app; split; auto|].
    split.
    - rewrite list_sum_app, list_sum_cons, Gw. cbn [list_sum fold_right]. lia.
    - intros F. rewrite flat_map_app. cbn [flat_map]. now rewrite Gy, app_nil_r, (Hy F).
  Qed.
End Inv.

(** ** Every disciplined parser *)
Lemma keeps_weaken_sink : forall floor (l l' : list item), floor <= length l -> firstn floor (l ++ l') = firstn floor l.
Proof. intros. rewrite firstn_app. replace (floor - length l) with 0 by lia. cbn. now rewrite app_nil_r. Qed.

Definition same_base (floor : nat) (s s' : pstate) : Prop :=
  floor <= length (ps_sink s') /\ firstn floor (ps_sink s') = firstn floor (ps_sink s) /\
  (exists e, ps_errs s' = ps_errs s ++ e) /\ ps_srclen s' = ps_srclen s.

Lemma same_base_refl : forall floor s, floor <= length (ps_sink s) -> same_base floor s s.
Proof. intros. split; [assumption|]. split; [reflexivity|]. split; [exists []; now rewrite app_nil_r | reflexivity]. Qed.

Lemma same_base_trans : forall floor s1 s2 s3, same_base floor s1 s2 -> same_base floor s2 s3 -> same_base floor s1 s3.
Proof.
  intros floor s1 s2 s3 (A1 & A2 & [e1 A3] & A4) (B1 & B2 & [e2 B3] & B4).
  split; [exact B1|]. split; [congruence|]. split; [|congruence].
  exists (e1 ++ e2). rewrite B3, A3. now rewrite app_assoc.
Qed.

Lemma push_base : forall floor s s' l, floor <= length (ps_sink s) ->
  ps_sink s' = ps_sink s ++ l -> ps_errs s' = ps_errs s -> ps_srclen s' = ps_srclen s -> same_base floor s s'.
Proof.
  intros floor s s' l H E1 E2 E3. split; [rewrite E1, app_length; lia|].
  split; [rewrite E1; now apply keeps_weaken_sink|]. split; [|exact E3]. exists []. now rewrite app_nil_r.
Qed.

Lemma skip_loop_push : forall ign n s, exists l,
  ps_sink (skip_trivia_loop ign n s) = ps_sink s ++ l /\ ps_errs (skip_trivia_loop ign n s) = ps_errs s /\
  ps_srclen (skip_trivia_loop ign n s) = ps_srclen s /\ ps_inc (skip_trivia_loop ign n s) = ps_inc s /\
  ps_toks (skip_trivia_loop ign n s) = ps_toks s /\ ps_next (skip_trivia_loop ign n s) = ps_next s.
Proof.
  intros ign. induction n as [|n IH]; intros s; cbn [skip_trivia_loop].
  - exists []. rewrite app_nil_r. auto 10.
  - destruct (ps_current s) as [t|]; [|exists []; rewrite app_nil_r; auto 10].
    destruct (ign (tk_kind t)); [|exists []; rewrite app_nil_r; auto 10].
    destruct (IH (set_index (push_leaf s t) (S (ps_index (push_leaf s t))))) as [l (A & B & C & D & E & F)].
    rewrite A, B, C, D, E, F. unfold set_index, push_leaf, set_sink. cbn. rewrite <- app_assoc.
    eexists. split; [reflexivity|]. auto 10.
Qed.

Lemma bump_push : forall ign s, exists l,
  ps_sink (bump ign s) = ps_sink s ++ l /\ ps_errs (bump ign s) = ps_errs s /\
  ps_srclen (bump ign s) = ps_srclen s /\ ps_inc (bump ign s) = ps_inc s /\
  ps_toks (bump ign s) = ps_toks s /\ ps_next (bump ign s) = ps_next s.
Proof.
  intros ign s. unfold bump. destruct (ps_current s) as [t|]; [|exists []; rewrite app_nil_r; auto 10].
  unfold ps_advance, skip_trivia.
  destruct (skip_loop_push ign (length (ps_toks (set_index (push_leaf s t) (S (ps_index (push_leaf s t))))) -
     ps_index (set_index (push_leaf s t) (S (ps_index (push_leaf s t)))))
     (set_index (push_leaf s t) (S (ps_index (push_leaf s t))))) as [l (A & B & C & D & E & F)].
  rewrite A, B, C, D, E, F. cbn. rewrite <- app_assoc. eexists. split; [reflexivity|]. auto 10.
Qed.

Section Run.
  Variable (ign : nat -> bool) (toks : list token) (old : green) (reuse : Prop).
  Hypothesis Hfit : lengths_fit toks.
  Hypothesis Hord : reuse -> Forall (fun t => tk_start t <= tk_end t) toks.

  Definition inv (s : pstate) : Prop :=
    good toks (~ reuse) s /\ (reuse -> old_ok old s) /\ (~ reuse -> settled ign s).

  Lemma inv_current : forall s i, good toks (~ reuse) s -> good toks (~ reuse) (set_inc s i).
  Proof. intros s i H. exact H. Qed.

  Lemma bump_inv : forall s, inv s -> inv (bump ign s).
  Proof.
    intros s (G & O & S). destruct (bump_push ign s) as [l (_ & _ & _ & D & _)].
    split; [now apply bump_good|]. split.
    - intros R. destruct (O R) as [B A]. split; [exact B|]. now rewrite D.
    - intros R. now apply bump_settled, S.
  Qed.

  Lemma eat_inv : forall k s r s', inv s -> eat ign k s = (r, s') -> inv s' /\ (s' = bump ign s \/ s' = s).
  Proof.
    intros k s r s' H E. unfold eat in E. destruct (at_kind s k); injection E as <- <-; auto using bump_inv.
  Qed.

  Lemma error_inv : forall s a b, inv s -> inv (push_error s a b).
  Proof. intros s a b H. exact H. Qed.

  Lemma bump_base : forall floor s, floor <= length (ps_sink s) -> same_base floor s (bump ign s).
  Proof.
    intros floor s H. destruct (bump_push ign s) as [l (A & B & C & _)]. eapply push_base; eauto.
  Qed.

  Lemma error_base : forall floor s a b, floor <= length (ps_sink s) -> same_base floor s (push_error s a b).
  Proof. intros floor s a b H. split; [exact H|]. split; [reflexivity|]. split; [eexists; reflexivity | reflexivity]. Qed.

  Lemma eat_base : forall floor k s r s', floor <= length (ps_sink s) -> eat ign k s = (r, s') -> same_base floor s s'.
  Proof.
    intros floor k s r s' H E. unfold eat in E.
    destruct (at_kind s k); injection E as <- <-; auto using bump_base, same_base_refl.
  Qed.

  Lemma exec_inv : forall o floor s r s', inv s -> floor <= length (ps_sink s) ->
    match o with Finish i _ => floor <= i | Advance | AdvanceUntil _ => False | _ => True end ->
    exec ign o s = Some (r, s') -> inv s' /\ same_base floor s s'.
  Proof.
    intros o floor s r s' H Hf Ho E. destruct o as [|k|k|tag|i k| |ks]; cbn [exec] in E; try contradiction.
    - injection E as <- <-. auto using bump_inv, bump_base.
    - injection E as E. split; [eapply eat_inv; eauto | eapply eat_base; eauto].
    - unfold expect in E. destruct (eat ign k s) as [ok s1] eqn:Ee.
      destruct (eat_inv _ _ _ _ H Ee) as [I1 _]. pose proof (eat_base _ _ _ _ _ Hf Ee) as B1.
      destruct ok; injection E as <- <-; [auto|]. split; [now apply error_inv|].
      eapply same_base_trans; [exact B1|]. apply error_base. apply B1.
    - injection E as <- <-. auto using error_inv, error_base.
    - destruct (finish_at s (0, i) k) as [[it s1]|] eqn:F; [|discriminate]. injection E as <- <-.
      destruct H as (G & O & S). destruct (finish_good ign toks Hfit _ _ _ _ _ _ G F) as (G' & Ix & Li & Sk & In_ & Er & Sl & Tk).
      split.
      + split; [exact G'|]. split.
        * intros R. destruct (O R) as [B A]. split; [exact B|]. now rewrite In_.
        * intros R. specialize (S R). unfold settled, to_come in *. now rewrite Ix, Tk.
      + split; [rewrite Sk, app_length, firstn_length; lia|]. rewrite Sk. split.
        * rewrite keeps_weaken_sink by (rewrite firstn_length; lia). rewrite firstn_firstn.
          now replace (Nat.min floor i) with floor by lia.
        * split; [exists []; now rewrite app_nil_r | exact Sl].
  Qed.

  Lemma reuse_inv : forall kind floor s r s', inv s -> reuse -> floor <= length (ps_sink s) ->
    try_reuse kind s = Some (r, s') -> inv s' /\ same_base floor s s'.
  Proof.
    intros kind floor s r s' (G & O & S) R Hf E.
    destruct (try_reuse_spec _ _ _ _ _ (O R) E) as [O' Hr]. destruct r.
    - destruct Hr as (inc & c' & n & ch & off & m & Ei & In1 & Bg & M & D & V & ->).
      destruct G as (Ht & Hi & Hb & Hw & Hy).
      assert (Hto : Forall (fun t => tk_start t <= tk_end t) (to_come s)).
      { unfold to_come. rewrite Ht. specialize (Hord R). rewrite <- (firstn_skipn (ps_index s) toks), Forall_app in Hord. tauto. }
      destruct (verify_spec _ _ _ _ _ V Hto) as (m' & Em & Hm & T). cbn in Em. subst m'.
      destruct (tiles_sum _ _ _ T) as [Hs _].
      split; [|eapply push_base; cbn; eauto].
      split; [|split; [intros _; exact O' | intros N; contradiction]].
      unfold to_come in *. rewrite Ht in *. rewrite skipn_length in Hm.
      unfold good, sink_trees. cbn [ps_toks ps_index ps_sink].
      split; [reflexivity|]. split; [lia|]. rewrite map_app. cbn [map snd].
      split; [apply Forall_app; auto|]. split; [|intros N; contradiction].
      unfold sink_trees in Hw. rewrite map_app, list_sum_app, Hw. cbn [map]. rewrite list_sum_cons.
      assert (Ef : firstn (ps_index s + m) toks = firstn (ps_index s) toks ++ firstn m (skipn (ps_index s) toks)).
      { rewrite <- (firstn_skipn (ps_index s) toks) at 1. rewrite firstn_app, firstn_firstn, firstn_length.
        replace (Nat.min (ps_index s + m) (ps_index s)) with (ps_index s) by lia.
        do 2 f_equal. lia. }
      rewrite Ef, map_app, list_sum_app.
      rewrite <- (glen_width _ Bg). cbn [glen list_sum fold_right]. lia.
    - destruct Hr as [i ->]. split; [|apply push_base with (l := []); cbn; rewrite ?app_nil_r; auto].
      split; [exact G|]. split; [intros _; exact O' | intros N; contradiction].
  Qed.

  Lemma restore_same : forall s s', same_base (length (ps_sink s)) s s' -> ps_toks s' = ps_toks s ->
    restore s' (checkpoint s) =
    PState (ps_toks s) (ps_index s) (ps_sink s) (ps_next s') (ps_errs s') (ps_srclen s) (ps_inc s').
  Proof.
    intros s s' (A & B & _ & D) E. unfold restore, checkpoint, set_sink, set_index. cbn.
    rewrite B, firstn_all, D, E. reflexivity.
  Qed.

  Lemma interp_inv : forall c floor s ok s', inv s -> floor <= length (ps_sink s) ->
    keeps reuse ign floor c s -> interp ign c s = Some (ok, s') -> inv s' /\ same_base floor s s'.
  Proof.
    induction c as [ok0|o k IH|b IHb k IH|kind k IH]; intros floor s ok s' H Hf K E; cbn [interp keeps] in *.
    - injection E as <- <-. auto using same_base_refl.
    - destruct K as [Ko Kk]. destruct (exec ign o s) as [[r s1]|] eqn:Ee; [|discriminate].
      destruct (exec_inv _ _ _ _ _ H Hf Ko Ee) as [I1 B1].
      assert (Hf1 : floor <= length (ps_sink s1)) by apply B1.
      destruct (IH r s1 floor s1 ok s' I1 Hf1 (Kk _ _ eq_refl) E) as [I2 B2].
      split; [exact I2 | eapply same_base_trans; eassumption].
    - destruct K as [Kb Kk]. destruct (interp ign b s) as [[r s1]|] eqn:Ee; [|discriminate].
      destruct (IHb _ _ _ _ H (le_n _) Kb Ee) as [I1 B1]. specialize (Kk _ _ eq_refl). cbv zeta in Kk.
      assert (Bw : same_base floor s s1).
      { destruct B1 as (A & B & C). split; [lia|]. split; [|exact C].
        apply (f_equal (firstn floor)) in B. rewrite !firstn_firstn in B.
        now replace (Nat.min floor (length (ps_sink s))) with floor in B by lia. }
      destruct r.
      + assert (Hf1 : floor <= length (ps_sink s1)) by lia || apply Bw.
        destruct (IH _ _ floor s1 ok s' I1 Hf1 Kk E) as [I2 B2].
        split; [exact I2 | eapply same_base_trans; eassumption].
      + cbv zeta in E.
        assert (Tk : ps_toks s1 = ps_toks s) by (destruct I1 as [(-> & _) _]; destruct H as [(-> & _) _]; reflexivity).
        rewrite (restore_same _ _ B1 Tk) in *.
        set (s2 := PState (ps_toks s) (ps_index s) (ps_sink s) (ps_next s1) (ps_errs s1) (ps_srclen s) (ps_inc s1)) in *.
        assert (I2 : inv s2).
        { destruct H as (G & O & S). destruct I1 as (G1 & O1 & S1). split; [exact G|]. split; [|exact S].
          intros R. destruct (O1 R). split; assumption. }
        assert (Bb : same_base floor s s2).
        { split; [exact Hf|]. split; [reflexivity|]. split; [|reflexivity]. destruct B1 as (_ & _ & C & _). exact C. }
        destruct (IH _ _ floor s2 ok s' I2 Hf Kk E) as [I3 B3].
        split; [exact I3 | eapply same_base_trans; eassumption].
    - destruct K as [R Kk]. destruct (try_reuse kind s) as [[r s1]|] eqn:Ee; [|discriminate].
      destruct (reuse_inv _ _ _ _ _ H R Hf Ee) as [I1 B1].
      assert (Hf1 : floor <= length (ps_sink s1)) by apply B1.
      destruct (IH r s1 floor s1 ok s' I1 Hf1 (Kk _ _ eq_refl) E) as [I2 B2].
      split; [exact I2 | eapply same_base_trans; eassumption].
  Qed.
End Run.

(** ** Skipping tokens *)
Lemma iter_right : forall {A} (f : A -> A) n x, Nat.iter (S n) f x = Nat.iter n f (f x).
Proof.
  intros A f n x. induction n as [|n IH]; [reflexivity|].
  change (Nat.iter (S (S n)) f x) with (f (Nat.iter (S n) f x)). rewrite IH. reflexivity.
Qed.

Section Skip.
  Variable (ign : nat -> bool).

  Lemma to_come_cons : forall s t, ps_current s = Some t -> to_come s = t :: skipn (S (ps_index s)) (ps_toks s).
  Proof. intros s t H. apply skipn_nth. exact H. Qed.

  Lemma in_tree_push : forall s t, lengths_fit (ps_toks s) -> ps_current s = Some t ->
    in_tree (push_leaf s t) = in_tree s ++ [tok_yield t].
  Proof.
    intros s t Hf Hc. unfold in_tree, sink_trees, push_leaf, set_sink. cbn [ps_sink].
    rewrite map_app, flat_map_app. cbn [map snd flat_map yield app].
    rewrite (fit_nth _ Hf _ _ Hc). reflexivity.
  Qed.

  Lemma skip_loop_exact : forall n s, lengths_fit (ps_toks s) -> length (ps_toks s) - ps_index s <= n ->
    exists seg, to_come s = seg ++ to_come (skip_trivia_loop ign n s) /\
      Forall (fun t => ign (tk_kind t) = true) seg /\
      in_tree (skip_trivia_loop ign n s) = in_tree s ++ map tok_yield seg /\
      ps_index (skip_trivia_loop ign n s) = ps_index s + length seg.
  Proof.
    induction n as [|n IH]; intros s Hf Hn; cbn [skip_trivia_loop].
    - exists []. cbn. rewrite app_nil_r. auto.
    - destruct (ps_current s) as [t|] eqn:E; [|exists []; cbn; rewrite app_nil_r; auto].
      destruct (ign (tk_kind t)) eqn:G; [|exists []; cbn; rewrite app_nil_r; auto].
      set (s1 := set_index (push_leaf s t) (S (ps_index (push_leaf s t)))).
      assert (ps_index s < length (ps_toks s)) by (unfold ps_current in E; apply nth_error_Some; congruence).
      destruct (IH s1) as (seg & A & B & C & D); [exact Hf | cbn; lia |].
      exists (t :: seg). split; [|split; [|split]].
      + rewrite (to_come_cons _ _ E). cbn [app]. f_equal. exact A.
      + now constructor.
      + rewrite C. unfold s1 at 1. change (in_tree (set_index (push_leaf s t) _)) with (in_tree (push_leaf s t)).
        rewrite in_tree_push by assumption. now rewrite <- app_assoc.
      + rewrite D. unfold s1. cbn. lia.
  Qed.

  Lemma filter_all : forall (l : list token), Forall (fun t => ign (tk_kind t) = true) l ->
    filter (fun t => ign (tk_kind t)) l = l.
  Proof. induction 1; [reflexivity|]. cbn. now rewrite H, IHForall. Qed.

  Lemma advance_exact : forall s t, lengths_fit (ps_toks s) -> ps_current s = Some t ->
    exists seg, to_come s = t :: seg ++ to_come (ps_advance ign s) /\
      Forall (fun t => ign (tk_kind t) = true) seg /\
      in_tree (ps_advance ign s) = in_tree s ++ map tok_yield seg /\
      ps_index (ps_advance ign s) = S (ps_index s) + length seg.
  Proof.
    intros s t Hf E. unfold ps_advance, skip_trivia.
    destruct (skip_loop_exact (length (ps_toks (set_index s (S (ps_index s)))) - ps_index (set_index s (S (ps_index s))))
                (set_index s (S (ps_index s))) Hf (le_n _)) as (seg & A & B & C & D).
    exists seg. rewrite (to_come_cons _ _ E). split; [f_equal; exact A|]. split; [exact B|]. split; [exact C|]. exact D.
  Qed.

  Lemma advance_toks : forall s, ps_toks (ps_advance ign s) = ps_toks s.
  Proof.
    intros s. unfold ps_advance, skip_trivia.
    edestruct (skip_loop_push ign) as [l (_ & _ & _ & _ & E & _)]. rewrite E. reflexivity.
  Qed.

  Lemma existsb_at_kind : forall ks s t, ps_current s = Some t ->
    existsb (at_kind s) ks = existsb (Nat.eqb (tk_kind t)) ks.
  Proof.
    intros ks s t H. induction ks as [|k ks IH]; [reflexivity|]. cbn. rewrite IH. f_equal.
    unfold at_kind, peek_kind. now rewrite H.
  Qed.

  Lemma advance_loop_exact : forall ks n s, lengths_fit (ps_toks s) -> settled ign s ->
    length (ps_toks s) - ps_index s <= n ->
    exists seg,
      let s' := advance_loop ign (fun s => existsb (at_kind s) ks) n s in
      to_come s = seg ++ to_come s' /\
      in_tree s' = in_tree s ++ map tok_yield (filter (fun t => ign (tk_kind t)) seg) /\
      match to_come s' with [] => True | t :: _ => In (tk_kind t) ks end /\
      Forall (fun t => ign (tk_kind t) = true \/ ~ In (tk_kind t) ks) seg.
  Proof.
    intros ks. induction n as [|n IH]; intros s Hf Hs Hn; cbn [advance_loop]; cbv zeta.
    - exists []. cbn. rewrite app_nil_r. split; [reflexivity|]. split; [reflexivity|].
      unfold to_come. rewrite skipn_all2 by lia. auto.
    - unfold ps_not_at_end. destruct (Nat.ltb_spec (ps_index s) (length (ps_toks s))) as [L|L].
      2:{ cbn [andb]. exists []. cbn. rewrite app_nil_r. split; [reflexivity|]. split; [reflexivity|].
          unfold to_come. rewrite skipn_all2 by lia. auto. }
      assert (exists t, ps_current s = Some t) as [t Et].
      { unfold ps_current. destruct (nth_error (ps_toks s) (ps_index s)) eqn:E; [eauto|].
        apply nth_error_None in E. lia. }
      rewrite (existsb_at_kind ks s t Et).
      destruct (existsb (Nat.eqb (tk_kind t)) ks) eqn:Ex; cbn [negb andb].
      + exists []. cbn. rewrite app_nil_r. split; [reflexivity|]. split; [reflexivity|].
        rewrite (to_come_cons _ _ Et). split; [|constructor].
        apply existsb_exists in Ex. destruct Ex as (k & I1 & I2). apply Nat.eqb_eq in I2. now subst.
      + destruct (advance_exact s t Hf Et) as (seg1 & A1 & B1 & C1 & D1).
        assert (Nin : ~ In (tk_kind t) ks).
        { intros Hin. assert (existsb (Nat.eqb (tk_kind t)) ks = true); [|congruence].
          apply existsb_exists. exists (tk_kind t). split; [exact Hin | apply Nat.eqb_refl]. }
        destruct (IH (ps_advance ign s)) as (seg2 & A2 & C2 & E2 & F2).
        { now rewrite advance_toks. }
        { apply skip_settled. }
        { rewrite advance_toks, D1. lia. }
        cbv zeta in *. exists (t :: seg1 ++ seg2). split; [|split; [|split]].
        * rewrite A1, A2. cbn. now rewrite <- app_assoc.
        * rewrite C2, C1. cbn [filter].
          assert (Hign : ign (tk_kind t) = false).
          { unfold settled in Hs. now rewrite (to_come_cons _ _ Et) in Hs. }
          rewrite Hign, filter_app, (filter_all seg1 B1), map_app. now rewrite app_assoc.
        * exact E2.
        * constructor; [now right|]. apply Forall_app. split; [|exact F2].
          eapply Forall_impl; [|exact B1]. intros a Ha. now left.
  Qed.

  (** Looking ahead agrees with consuming. *)
  Lemma peek_nt_skip : forall seg ts n, Forall (fun t => ign (tk_kind t) = true) seg ->
    peek_nt ign (seg ++ ts) n = peek_nt ign ts n.
  Proof. induction 1 as [|t seg Ht Hs IH]; [reflexivity|]. cbn. now rewrite Ht. Qed.

  Lemma bump_toks : forall s, ps_toks (bump ign s) = ps_toks s.
  Proof. intros s. destruct (bump_push ign s) as [l (_ & _ & _ & _ & E & _)]. exact E. Qed.

  Lemma push_leaf_current : forall s t, ps_current (push_leaf s t) = ps_current s.
  Proof. reflexivity. Qed.

  Lemma peek_bump : forall n s, lengths_fit (ps_toks s) -> settled ign s ->
    peek_non_trivia_at ign s n = ps_current (Nat.iter n (bump ign) s).
  Proof.
    induction n as [|n IH]; intros s Hf Hs.
    - cbn. unfold peek_non_trivia_at, settled, to_come, ps_current in *.
      destruct (skipn (ps_index s) (ps_toks s)) as [|t r] eqn:E.
      + cbn. symmetry. apply nth_error_None.
        assert (L := skipn_length (ps_index s) (ps_toks s)). rewrite E in L. cbn in L. lia.
      + cbn. rewrite Hs. rewrite <- (firstn_skipn (ps_index s) (ps_toks s)), E.
        assert (L := skipn_length (ps_index s) (ps_toks s)). rewrite E in L. cbn in L.
        rewrite nth_error_app2 by (rewrite firstn_length; lia). rewrite firstn_length.
        replace (ps_index s - Nat.min (ps_index s) (length (ps_toks s))) with 0 by lia. reflexivity.
    - rewrite iter_right.
      rewrite <- IH; [|now rewrite bump_toks|now apply bump_settled].
      unfold peek_non_trivia_at. fold (to_come s). fold (to_come (bump ign s)).
      unfold bump. destruct (ps_current s) as [t|] eqn:E.
      + destruct (advance_exact (push_leaf s t) t) as (seg & A & B & _ & _); [exact Hf | exact E |].
        change (to_come (push_leaf s t)) with (to_come s) in A.
        unfold settled in Hs. rewrite A in *. cbn [peek_nt]. rewrite Hs. now apply peek_nt_skip.
      + unfold ps_current in E. apply nth_error_None in E. unfold to_come. rewrite skipn_all2 by lia. reflexivity.
  Qed.
End Skip.

(** ** Consequences for the finished tree *)
Lemma good_lossless : forall toks s, good toks True s -> lossless toks s.
Proof.
  intros toks s (A & B & _ & _ & E). split; [exact A|]. split; [exact B|].
  unfold to_come. rewrite (E I), A, <- map_app, firstn_skipn. reflexivity.
Qed.

Lemma good_covering : forall toks full s, good toks full s -> covering toks s.
Proof.
  intros toks full s (A & B & _ & E & _). split; [exact A|]. split; [exact B|].
  unfold to_come. rewrite E, A, <- list_sum_app, <- map_app, firstn_skipn. reflexivity.
Qed.

Lemma leaves_of_yield : forall t off,
  map (fun '(k, a, b) => (k, b - a)) (leaves t off) = yield t.
Proof.
  induction t as [k n m | k n ch IH] using green_ind'; intros off.
  - cbn. repeat f_equal. lia.
  - rewrite leaves_eq. rewrite yield_node. revert off. induction IH as [|c r Hc Hr IHr]; intros off; [reflexivity|].
    cbn [lay flat_map]. rewrite map_app, Hc, IHr. reflexivity.
Qed.

Lemma tiled_leaves : forall (l : list (nat * nat * nat)) toks a e,
  tiles leaf_span a l e -> (exists e', tiles tok_span a toks e') ->
  map (fun '(k, a, b) => (k, b - a)) l = map tok_yield toks ->
  l = map (fun t => (tk_kind t, tk_start t, tk_end t)) toks.
Proof.
  induction l as [|[[k x] y] l IH]; intros toks a e H [e' T] E; destruct toks as [|t toks]; try discriminate; [reflexivity|].
  cbn [map] in E. inversion E as [[E1 E2 E3]]. subst.
  inversion H; subst. inversion T; subst. cbn [leaf_span tok_span fst snd] in *.
  cbn [map]. replace y with (tk_end t) in * by lia.
  rewrite <- H2. f_equal. eapply IH; [eassumption | eauto | exact E3].
Qed.

Lemma tiled_text : forall toks a e (text : str), tiles tok_span a toks e -> e <= length text ->
  concat (map (fun t => substr text (tk_start t) (tk_end t)) toks) = substr text a e.
Proof.
  intros toks a e text H. induction H as [a|a t l e H1 H2 H3 IH]; intros He.
  - cbn. unfold substr. rewrite Nat.sub_diag. reflexivity.
  - cbn [map concat]. rewrite IH by assumption. cbn [tok_span fst snd] in *. subst a.
    destruct (tiles_sum _ _ _ H3) as [_ L]. symmetry. now apply substr_split.
Qed.

(** ** Mapping new positions to old ones *)
Lemma text_at_app_l : forall (a b : str) p n, p + n <= length a -> text_at (a ++ b) p n = text_at a p n.
Proof.
  intros a b p n H. unfold text_at. rewrite skipn_app, firstn_app, skipn_length.
  replace (n - (length a - p)) with 0 by lia. cbn. now rewrite app_nil_r.
Qed.

Lemma text_at_app_r : forall (a b : str) p n, text_at (a ++ b) (length a + p) n = text_at b p n.
Proof.
  intros a b p n. unfold text_at. rewrite skipn_app.
  replace (length a + p - length a) with p by lia. rewrite skipn_all2 by lia. reflexivity.
Qed.

Lemma text_at_substr : forall (s : str) a b p n, a + p + n <= b -> text_at (substr s a b) p n = text_at s (a + p) n.
Proof.
  intros s a b p n H. unfold text_at, substr.
  rewrite skipn_firstn_comm, skipn_skipn_add, firstn_firstn. f_equal. lia.
Qed.

Definition clean (es : list edit) (a b : nat) : Prop :=
  Forall (fun e => ~ (a < e_end e /\ e_start e < b)) es.

Lemma is_dirty_clean : forall es d a b, is_dirty (with_deltas d es) a b = false -> clean es a b.
Proof.
  induction es as [|e es IH]; intros d a b H; [constructor|]. cbn [with_deltas] in H.
  unfold is_dirty in *. cbn [existsb] in H. apply orb_false_iff in H. destruct H as [H1 H2].
  constructor; [|eapply IH; exact H2].
  apply andb_false_iff in H1. rewrite !Nat.ltb_ge in H1. lia.
Qed.

Lemma as_usize_pos : forall z, (0 <= z)%Z -> as_usize z = z.
Proof. intros z H. unfold as_usize. destruct (Z.ltb_spec z 0); [lia | reflexivity]. Qed.

Lemma map_text : forall s l p d np t n,
  chain p l -> Forall (fun e => e_end e <= length s) l -> (0 <= Z.of_nat p + d)%Z ->
  (Z.of_nat p + d <= Z.of_nat np)%Z -> p <= length s ->
  map_new_to_old (with_deltas d l) d np = Some (Z.of_nat t) ->
  clean l t (t + n) -> 0 < n ->
  text_at (go s p l) (Z.to_nat (Z.of_nat np - (Z.of_nat p + d))) n = text_at s t n.
Proof.
  intros s. induction l as [|e l IH]; intros p d np t n Hc Hl Hp Hnp Hps Hm Hcl Hn.
  - cbn in *. rewrite as_usize_pos in Hm by lia. injection Hm as Hm.
    unfold text_at. rewrite skipn_skipn_add. do 2 f_equal. lia.
  - cbn [with_deltas map_new_to_old] in Hm. cbn [chain] in Hc. destruct Hc as (C1 & C2 & C3).
    inversion Hl; subst. inversion Hcl; subst.
    rewrite (as_usize_pos (Z.of_nat (e_start e) + d)) in Hm by lia.
    replace (Z.of_nat (e_end e) + d + (d + delta_of e - d))%Z with (Z.of_nat (e_end e) + (d + delta_of e))%Z in Hm by lia.
    assert (Hd : (Z.of_nat (e_end e) + (d + delta_of e) = Z.of_nat (e_start e) + d + Z.of_nat (length (e_text e)))%Z)
      by (unfold delta_of; lia).
    rewrite (as_usize_pos (Z.of_nat (e_end e) + (d + delta_of e))) in Hm by lia.
    cbn [go].
    destruct (Z.ltb_spec (Z.of_nat np) (Z.of_nat (e_start e) + d)) as [L|L].
    + rewrite as_usize_pos in Hm by lia. injection Hm as Hm.
      assert (t + n <= e_start e) by lia.
      rewrite text_at_app_l by (rewrite substr_length by lia; lia).
      rewrite text_at_substr by lia. f_equal. lia.
    + destruct (Z.ltb_spec (Z.of_nat np) (Z.of_nat (e_end e) + (d + delta_of e))) as [L2|L2]; [discriminate|].
      rewrite <- (IH (e_end e) (d + delta_of e)%Z np t n) by (assumption || lia).
      rewrite app_assoc.
      replace (Z.to_nat (Z.of_nat np - (Z.of_nat p + d))) with
        (length (substr s p (e_start e) ++ e_text e) + Z.to_nat (Z.of_nat np - (Z.of_nat (e_end e) + (d + delta_of e)))).
      * apply text_at_app_r.
      * rewrite app_length, substr_length by lia. lia.
Qed.

Lemma simultaneous_go : forall s es, Forall (edit_ok s) es -> compatible es ->
  simultaneous s es = go s 0 (sort_edits es) /\ chain 0 (sort_edits es) /\
  Forall (fun e => e_end e <= length s) (sort_edits es).
Proof.
  intros s es Hok Hc.
  assert (Hok' : Forall (edit_ok s) (sort_edits es)).
  { eapply Forall_perm; [symmetry; apply sort_edits_perm | assumption]. }
  assert (Hch : chain 0 (sort_edits es)) by (apply compatible_chain; [assumption | eapply edits_wf; eassumption]).
  assert (Hle : Forall (fun e => e_end e <= length s) (sort_edits es)).
  { eapply Forall_impl; [| exact Hok']. intros e (_ & H & _). exact H. }
  split; [|auto]. rewrite <- simultaneous_sort. unfold simultaneous.
  rewrite <- spec_go with (pos := 0) by (assumption || lia). reflexivity.
Qed.

Lemma reused_text : forall old_text es old kind s s' inc,
  Forall (edit_ok old_text) es -> compatible es ->
  built old -> width old = length old_text ->
  ps_inc s = Some inc -> ic_edits inc = ic_edits (inc_new old es) -> at_place old (ic_cursor inc) ->
  try_reuse kind s = Some (true, s') ->
  exists g off, sink_trees s' = sink_trees s ++ [g] /\ In (g, off) (elements old 0) /\
    text_at (simultaneous old_text es) (current_offset s) (width g) = text_at old_text off (width g).
Proof.
  intros old_text es old kind s s' inc Hok Hc Hb Hw Hi He Hp H.
  destruct (try_reuse_spec old kind s true s') as [_ Hr]; [split; [exact Hb | now rewrite Hi] | exact H |].
  destruct Hr as (inc' & c' & n & ch & off & m & Ei & In1 & Bg & M & D & V & ->).
  rewrite Hi in Ei. injection Ei as <-. exists (GNode kind n ch), off.
  split; [unfold sink_trees; cbn; now rewrite map_app|]. split; [exact In1|].
  destruct (simultaneous_go old_text es Hok Hc) as (Eg & Ch & Le). rewrite Eg.
  rewrite He in M, D. unfold inc_new in M, D. cbn [ic_edits] in M, D.
  apply is_dirty_clean in D. rewrite <- (glen_width _ Bg). cbn [glen].
  destruct (elements_inside _ _ _ _ In1) as [_ Hin]. rewrite <- (glen_width _ Bg) in Hin. cbn [glen] in Hin.
  destruct n as [|n]; [reflexivity|].
  pose proof (map_text old_text (sort_edits es) 0 0 (current_offset s) off (S n) Ch Le) as T.
  cbn [Z.of_nat Z.add] in T. rewrite Z.sub_0_r, Nat2Z.id in T. apply T; try assumption; lia.
Qed.
