(** Whitespace and identifier scanners, guarded loops and resuming from a cache. *)
From Verif Require Import Base Utf8 Utf8Facts ScanSpec SimdModel SimdProofs.
From Verif Require Import CursorModel CursorSpec CursorProofs LexModel LexSpec LexProofs.

Lemma lx_take_while_spec : forall src text p, serves src text ->
  forall fuel l, lx_placed src text l -> length text - lx_pos l < fuel ->
  exists l' cs, lx_take_while src fuel p l = Some l' /\ lx_placed src text l' /\
    lx_toks l' = lx_toks l /\ reads text (lx_pos l) (lx_pos l') cs /\ Forall (fun c => p c = true) cs /\
    (forall b ch, reads text (lx_pos l') b [ch] -> p ch = false).
Proof.
  intros src text p Hs. induction fuel as [| f IH]; intros l Hp Hf; [lia|]. cbn [lx_take_while].
  pose proof (placed_pos_le _ _ _ Hp) as Hle.
  destruct (lx_current_spec src text l Hs Hp) as (r & l1 & -> & Hc & Hp1 & Ho1 & Ht1). destruct r as [ch|].
  - destruct Hc as [m Hm]. destruct (p ch) eqn:Ep.
    + rewrite <- Ho1 in Hm. destruct (lx_step_char src text l1 m ch Hs Hp1 Hm) as (Hp2 & Ho2 & Ht2 & Hlt). cbv zeta in *.
      destruct (IH _ Hp2) as (l' & cs & -> & Hp' & Ht' & Hr & HF & Hstop); [lia|].
      exists l', (ch :: cs). split; [reflexivity|]. split; [assumption|]. split; [congruence|].
      split; [|split; [constructor; assumption | assumption]].
      change (ch :: cs) with ([ch] ++ cs). apply (reads_app _ _ m); [now rewrite <- Ho1 | now rewrite <- Ho2].
    + exists l1, []. split; [reflexivity|]. split; [assumption|]. split; [assumption|].
      rewrite Ho1. split; [now apply reads_nil|]. split; [constructor|].
      intros b ch' Hr. destruct (reads_unique _ _ _ _ _ _ Hm Hr) as (<- & _). assumption.
  - cbn [char_at] in Hc. exists l1, []. split; [reflexivity|]. split; [assumption|]. split; [assumption|].
    rewrite Ho1. split; [now apply reads_nil|]. split; [constructor|].
    intros b ch' Hr. apply reads_nonempty in Hr. lia.
Qed.

Lemma skip_space_lx : forall src text l, serves src text -> lx_placed src text l ->
  exists l' n, lx_scan l (cursor_skip_whitespace src (lx_cur l)) = Some l' /\ lx_placed src text l' /\
    lx_toks l' = lx_toks l /\ lx_pos l' = lx_pos l + n /\
    longest_run whitespace_byte (skipn (lx_pos l) text) n.
Proof.
  intros src text l Hs Hp.
  destruct (step_refines src text (lx_cur l) SkipSpace Hs Hp I) as (o & c' & He & Hst & Hp').
  cbn [cursor_step] in He. unfold range_step in He.
  destruct (cursor_skip_whitespace src (lx_cur l)) as [c|]; [|discriminate].
  assert (c = c') by congruence. subst c. inversion Hst; subst.
  exists (Lexer c' (lx_toks l)), n. split; [reflexivity|]. split; [assumption|]. split; [reflexivity|].
  unfold lx_pos. cbn [lx_cur]. split; congruence.
Qed.

Lemma skip_ident_lx : forall src text l, serves src text -> lx_placed src text l ->
  exists l' n, lx_scan l (cursor_skip_ident src (lx_cur l)) = Some l' /\ lx_placed src text l' /\
    lx_toks l' = lx_toks l /\ lx_pos l' = lx_pos l + n /\
    longest_run ident_byte (skipn (lx_pos l) text) n.
Proof.
  intros src text l Hs Hp.
  destruct (step_refines src text (lx_cur l) SkipIdent Hs Hp I) as (o & c' & He & Hst & Hp').
  cbn [cursor_step] in He. unfold range_step in He.
  destruct (cursor_skip_ident src (lx_cur l)) as [c|]; [|discriminate].
  assert (c = c') by congruence. subst c. inversion Hst; subst.
  exists (Lexer c' (lx_toks l)), n. split; [reflexivity|]. split; [assumption|]. split; [reflexivity|].
  unfold lx_pos. cbn [lx_cur]. split; congruence.
Qed.

Lemma scan_whitespace_spec : forall src text unicode ws kind l, serves src text -> lx_placed src text l ->
  exists b l', scan_whitespace src unicode ws kind l = Some (b, l') /\ lx_placed src text l' /\
    (b = true <-> lx_pos l < lx_pos l') /\
    (if b then emits kind l l' else declines l l') /\
    if unicode then exists cs, reads text (lx_pos l) (lx_pos l') cs /\ Forall (fun c => ws c = true) cs /\
      (forall e ch, reads text (lx_pos l') e [ch] -> ws ch = false)
    else exists n, lx_pos l' = lx_pos l + n /\ longest_run whitespace_byte (skipn (lx_pos l) text) n.
Proof.
  intros src text unicode ws kind l Hs Hp. unfold scan_whitespace.
  assert (H : exists l1, (if unicode then lx_take_while src (scan_fuel src) ws l
                          else lx_scan l (cursor_skip_whitespace src (lx_cur l))) = Some l1 /\
     lx_placed src text l1 /\ lx_toks l1 = lx_toks l /\ lx_pos l <= lx_pos l1 /\
     if unicode then exists cs, reads text (lx_pos l) (lx_pos l1) cs /\ Forall (fun c => ws c = true) cs /\
       (forall e ch, reads text (lx_pos l1) e [ch] -> ws ch = false)
     else exists n, lx_pos l1 = lx_pos l + n /\ longest_run whitespace_byte (skipn (lx_pos l) text) n).
  { destruct unicode.
    - destruct (lx_take_while_spec src text ws Hs (scan_fuel src) l Hp) as (l1 & cs & H1 & H2 & H3 & H4 & H5 & H6).
      { unfold scan_fuel. destruct Hs as (_ & -> & _). lia. }
      exists l1. split; [assumption|]. split; [assumption|]. split; [assumption|].
      split; [destruct H4 as (_ & H4 & _); lia|]. now exists cs.
    - destruct (skip_space_lx src text l Hs Hp) as (l1 & n & H1 & H2 & H3 & H4 & H5).
      exists l1. split; [assumption|]. split; [assumption|]. split; [assumption|]. split; [lia|]. now exists n. }
  destruct H as (l1 & -> & Hp1 & Ht1 & Hle & Hrun).
  destruct (lx_pos l <? lx_pos l1) eqn:E.
  - exists true, (add_token l1 kind (lx_pos l) (lx_pos l1)). split; [reflexivity|]. split; [assumption|].
    unfold emits, add_token. cbn [lx_toks]. change (lx_pos (Lexer (lx_cur l1) ?x)) with (lx_pos l1).
    split; [split; [lia | reflexivity]|]. split; [rewrite Ht1; reflexivity|]. exact Hrun.
  - exists false, l1. split; [reflexivity|]. split; [assumption|]. split; [split; [discriminate | lia]|].
    split; [split; [assumption | lia] | exact Hrun].
Qed.

Definition ident_start (b : Z) : Prop := (97 <= b <= 122 \/ 65 <= b <= 90 \/ b = 95)%Z.

Lemma scan_ident_spec : forall src text kind l, serves src text -> lx_placed src text l ->
  exists b l', scan_ascii_identifier src kind l = Some (b, l') /\ lx_placed src text l' /\
    if b then emits kind l l' /\ (exists x, nth_error text (lx_pos l) = Some x /\ ident_start x) /\
      exists n, 0 < n /\ lx_pos l' = lx_pos l + n /\ longest_run ident_byte (skipn (lx_pos l) text) n
    else declines l l' /\ forall x, nth_error text (lx_pos l) = Some x -> ~ ident_start x.
Proof.
  intros src text kind l Hs Hp. unfold scan_ascii_identifier. assert (Hv : valid text) by apply Hs.
  destruct (lx_peek_byte_spec src text l Hs Hp) as (l1 & -> & Hp1 & Ho1 & Ht1).
  destruct (nth_error text (lx_pos l)) as [b|] eqn:Eb.
  - destruct ((b =? 95)%Z || is_ascii_alphabetic b) eqn:Et.
    + assert (Hst : ident_start b).
      { unfold ident_start, is_ascii_alphabetic, is_ascii_lower, is_ascii_upper in *. lia. }
      assert (Hlt : lx_pos l < length text) by (apply nth_error_Some; congruence).
      destruct (advance_byte_nearby src text l1 Hs Hp1) as (Hn2 & Ht2 & Ho2 & _). cbv zeta in *.
      rewrite Ho1 in Ho2. specialize (Ho2 Hlt). set (l2 := lx_advance_byte src l1) in *.
      assert (Hb2 : is_boundary text (lx_pos l2) = true).
      { rewrite Ho2. apply (ascii_step_boundary text (lx_pos l) b Hv Eb). unfold ident_start in Hst. lia. }
      assert (Hp2 : lx_placed src text l2).
      { destruct Hn2 as [H | [Hd _]]; [assumption | split; assumption]. }
      destruct (skip_ident_lx src text l2 Hs Hp2) as (l3 & n & -> & Hp3 & Ht3 & Ho3 & Hrun).
      exists true, (add_token l3 kind (lx_pos l) (lx_pos l3)). split; [reflexivity|]. split; [assumption|].
      unfold emits, add_token. cbn [lx_toks]. change (lx_pos (Lexer (lx_cur l3) ?x)) with (lx_pos l3).
      split; [rewrite Ht3, Ht2, Ht1; reflexivity|]. split; [now exists b|].
      exists (1 + n). split; [lia|]. split; [lia|].
      rewrite (skipn_cons_nth_error Z _ _ _ Eb). rewrite <- Ho2.
      change (b :: skipn (lx_pos l2) text) with ([b] ++ skipn (lx_pos l2) text).
      apply (run_app_full ident_byte [b]); [|assumption]. constructor; [|constructor].
      unfold ident_start, ident_byte in *. lia.
    + exists false, l1. split; [reflexivity|]. split; [assumption|]. split; [split; assumption|].
      intros x [= <-] Hx. unfold ident_start, is_ascii_alphabetic, is_ascii_lower, is_ascii_upper in *. lia.
  - exists false, l1. split; [reflexivity|]. split; [assumption|]. split; [split; assumption | discriminate].
Qed.

(** ** Guarded loops *)

Lemma guard_spec : forall src text sp l, serves src text -> lx_placed src text l ->
  sp < length text -> sp <= lx_pos l ->
  let l' := advance_if_dead_lock src sp l in
  lx_placed src text l' /\ lx_toks l' = lx_toks l /\ sp < lx_pos l' /\ lx_pos l <= lx_pos l'.
Proof.
  intros src text sp l Hs Hp Hlt Hle. cbv zeta. unfold advance_if_dead_lock.
  destruct (lx_pos l =? sp) eqn:E.
  - destruct (lx_current_spec src text l Hs Hp) as (r & l1 & -> & Hc & Hp1 & Ho1 & Ht1).
    destruct r as [ch|]; [|cbn [char_at] in Hc; lia]. destruct Hc as [m Hm]. rewrite <- Ho1 in Hm.
    destruct (lx_step_char src text l1 m ch Hs Hp1 Hm) as (H1 & H2 & H3 & H4). cbv zeta in *.
    split; [assumption|]. split; [congruence|]. lia.
  - split; [assumption|]. split; [reflexivity|]. lia.
Qed.

Lemma guarded_loop_spec : forall src text rules (I : lexer -> Prop), serves src text ->
  (forall l, lx_placed src text l -> lx_pos l < length text -> I l -> exists l', rules l = Some l' /\
     lx_placed src text l' /\ lx_pos l <= lx_pos l' /\ I l') ->
  (forall l l', lx_pos l <= lx_pos l' -> lx_toks l' = lx_toks l -> I l -> I l') ->
  forall fuel l, lx_placed src text l -> I l -> length text - lx_pos l < fuel ->
  exists l', guarded_loop src rules fuel l = Some l' /\ lx_placed src text l' /\
    lx_pos l' = length text /\ I l'.
Proof.
  intros src text rules I Hs Hrules Hmono. assert (Hlen : src_len src = length text) by apply Hs.
  induction fuel as [| f IH]; intros l Hp HI Hf; [lia|]. cbn [guarded_loop]. unfold not_at_end. rewrite Hlen.
  pose proof (placed_pos_le _ _ _ Hp) as Hle.
  destruct (lx_pos l <? length text) eqn:E.
  - destruct (Hrules l Hp ltac:(lia) HI) as (l1 & -> & Hp1 & Hle1 & HI1).
    destruct (guard_spec src text (lx_pos l) l1 Hs Hp1 ltac:(lia) Hle1) as (Hp2 & Ht2 & H2a & H2b). cbv zeta in *.
    apply IH; [assumption | | lia]. now apply (Hmono l1).
  - exists l. split; [reflexivity|]. split; [assumption|]. split; [lia | assumption].
Qed.

Lemma ordered_weaken : forall a ts b b', ordered a ts b -> b <= b' -> ordered a ts b'.
Proof. induction 1; intros; constructor; auto; lia. Qed.

Lemma ordered_snoc : forall a ts b t, ordered a ts b -> b <= tk_start t -> tk_start t <= tk_end t ->
  ordered a (ts ++ [t]) (tk_end t).
Proof.
  induction 1; intros; cbn [app]; constructor; auto; try lia. now constructor.
Qed.

Lemma try_scanners_spec : forall src text fs, Forall (scanner_ok src text) fs ->
  forall l, lx_placed src text l -> exists l', try_scanners fs l = Some l' /\ lx_placed src text l' /\
    lx_pos l <= lx_pos l' /\ (declines l l' \/ exists kind, emits kind l l').
Proof.
  intros src text fs H. induction H as [| f fs Hf _ IH]; intros l Hp; cbn [try_scanners].
  - exists l. split; [reflexivity|]. split; [assumption|]. split; [lia|]. left. now split.
  - destruct (Hf l Hp) as (b & l1 & -> & Hp1 & Hb). destruct b.
    + exists l1. destruct Hb as (Hle & Hk). auto.
    + destruct Hb as (Ht & Ho). destruct (IH l1 Hp1) as (l' & -> & Hp' & Hle & Hd).
      exists l'. split; [reflexivity|]. split; [assumption|]. split; [lia|].
      destruct Hd as [(H1 & H2) | (k & H1)]; [left; split; congruence | right].
      exists k. unfold emits in *. congruence.
Qed.

Lemma scanner_lexer_spec : forall src text fs l,
  serves src text -> Forall (scanner_ok src text) fs -> lx_placed src text l ->
  ordered 0 (lx_toks l) (lx_pos l) ->
  exists l', guarded_loop src (try_scanners fs) (scan_fuel src) l = Some l' /\ lx_placed src text l' /\
    lx_pos l' = length text /\ ordered 0 (lx_toks l') (length text).
Proof.
  intros src text fs l Hs Hfs Hp Ho.
  destruct (guarded_loop_spec src text (try_scanners fs) (fun l => ordered 0 (lx_toks l) (lx_pos l)) Hs)
    with (fuel := scan_fuel src) (l := l) as (l' & H1 & H2 & H3 & H4); try assumption.
  - intros l0 Hp0 _ Ho0. destruct (try_scanners_spec src text fs Hfs l0 Hp0) as (l1 & H1 & H2 & H3 & H4).
    exists l1. split; [assumption|]. split; [assumption|]. split; [assumption|].
    destruct H4 as [(Ht & Hpos) | (k & Hk)].
    + rewrite Ht, Hpos. assumption.
    + unfold emits in Hk. rewrite Hk.
      apply (ordered_snoc 0 (lx_toks l0) (lx_pos l0) (Token k (lx_pos l0) (lx_pos l1))); auto.
  - intros l0 l1 Hle Ht H. rewrite Ht. now apply (ordered_weaken _ _ (lx_pos l0)).
  - unfold scan_fuel. destruct Hs as (_ & -> & _). lia.
  - exists l'. rewrite H3 in H4. auto.
Qed.

(** ** Resuming from a cache *)

Lemma while_before_prefix : forall p ts, exists rest, ts = while_before p ts ++ rest /\
  Forall (fun t => p t = true) (while_before p ts) /\
  match rest with [] => True | t :: _ => p t = false end.
Proof.
  induction ts as [| t ts (rest & He & HF & Hr)]; cbn [while_before].
  - exists []. repeat split; auto.
  - destruct (p t) eqn:Ep.
    + exists rest. cbn [app]. rewrite <- He. repeat split; auto.
    + exists (t :: ts). repeat split; auto.
Qed.

(** Binary search on a partitioned list. *)
Lemma bsearch_spec : forall (p : token -> bool) pre post,
  Forall (fun t => p t = true) pre -> Forall (fun t => p t = false) post ->
  forall fuel left size, left <= length pre <= left + size -> left + size <= length (pre ++ post) ->
  size < fuel -> bsearch fuel p (pre ++ post) left size = Some (length pre).
Proof.
  intros p pre post Hpre Hpost. rewrite app_length. induction fuel as [| f IH]; intros left size Hr Hle Hf; [lia|].
  cbn [bsearch]. destruct (size =? 0) eqn:E0; [f_equal; lia|].
  pose proof (Nat.div2_decr size (size - 1)) as Hdiv.
  assert (Hh : Nat.div2 size < size) by (apply Nat.lt_div2; lia). set (half := Nat.div2 size) in *. clearbody half.
  destruct (nth_error (pre ++ post) (left + half)) as [t|] eqn:En.
  - destruct (p t) eqn:Ep.
    + apply IH; [|lia|lia]. assert (left + half < length pre); [|lia].
      destruct (Nat.lt_ge_cases (left + half) (length pre)); [assumption|]. exfalso.
      rewrite nth_error_app2 in En by assumption. apply nth_error_In in En.
      rewrite Forall_forall in Hpost. rewrite (Hpost t En) in Ep. discriminate.
    + apply IH; [|lia|lia]. assert (length pre <= left + half); [|lia].
      destruct (Nat.lt_ge_cases (left + half) (length pre)); [exfalso|assumption].
      rewrite nth_error_app1 in En by assumption. apply nth_error_In in En.
      rewrite Forall_forall in Hpre. rewrite (Hpre t En) in Ep. discriminate.
  - apply nth_error_None in En. rewrite app_length in En. lia.
Qed.

(** Token ends increase along an ordered list. *)
Lemma ordered_ends : forall a ts b, ordered a ts b -> Forall (fun t => a <= tk_end t) ts.
Proof.
  induction 1 as [| a t ts b H1 H2 H3 IH]; constructor; [lia|].
  eapply Forall_impl; [|exact IH]. cbn. intros x Hx. lia.
Qed.

Lemma ordered_partition : forall a ts b n, ordered a ts b ->
  exists pre post, ts = pre ++ post /\ pre = while_before (fun t => tk_end t <=? n) ts /\
    Forall (fun t => (tk_end t <=? n) = true) pre /\ Forall (fun t => (tk_end t <=? n) = false) post.
Proof.
  induction 1 as [| a t ts b H1 H2 H3 (pre & post & He & Hw & HF & HG)].
  - exists [], []. repeat split; constructor.
  - cbn [while_before]. destruct (tk_end t <=? n) eqn:E.
    + exists (t :: pre), post. subst ts. cbn [app]. rewrite <- Hw. repeat split; auto.
    + exists [], (t :: ts). repeat split; auto. constructor; [assumption|].
      pose proof (ordered_ends _ _ _ H3) as Hends. eapply Forall_impl; [|exact Hends]. cbn. intros x Hx. lia.
Qed.

Lemma last_end_snoc : forall ts t, last_end (ts ++ [t]) = tk_end t.
Proof. intros. unfold last_end. now rewrite rev_app_distr. Qed.

Lemma last_end_le : forall ts n, Forall (fun t => tk_end t <= n) ts -> last_end ts <= n.
Proof.
  intros ts n H. unfold last_end. destruct (rev ts) as [| t r] eqn:E; [lia|].
  rewrite Forall_forall in H. apply H. rewrite in_rev, E. now left.
Qed.

(** What is kept, characterised without the search. *)
Lemma new_with_cache_spec : forall src ts slice n b,
  ordered 0 ts b -> 0 < n < src_len src -> exists pre post,
  ts = pre ++ post /\ Forall (fun t => tk_end t <= n) pre /\ Forall (fun t => n < tk_end t) post /\
  new_with_cache src n (Cache ts slice)
  = Some (Lexer (cursor_at src (last_end (firstn (length pre - 1) pre))) (firstn (length pre - 1) pre)).
Proof.
  intros src ts slice n b Ho Hn.
  destruct (ordered_partition 0 ts b n Ho) as (pre & post & He & Hw & HF & HG).
  exists pre, post. split; [assumption|].
  split; [eapply Forall_impl; [|exact HF]; cbn; intros; lia|].
  split; [eapply Forall_impl; [|exact HG]; cbn; intros; lia|].
  unfold new_with_cache. cbn [ca_toks ca_slice]. destruct ts as [| t0 ts'] eqn:Ets.
  - symmetry in He. apply app_eq_nil in He. destruct He as [-> _]. reflexivity.
  - rewrite <- Ets in *. rewrite Nat.min_l by lia. replace (src_len src <=? n) with false by lia.
    replace (n =? 0) with false by lia. destruct slice.
    + unfold partition_point. rewrite He.
      rewrite (bsearch_spec _ pre post HF HG) by (rewrite ?app_length; lia).
      assert (Hfn : firstn (length pre - 1) (pre ++ post) = firstn (length pre - 1) pre) by (apply firstn_app_le; lia).
      rewrite Hfn. reflexivity.
    + rewrite <- Hw. reflexivity.
Qed.

Lemma firstn_last : forall (A : Type) (l : list A), l <> [] ->
  exists x, l = firstn (length l - 1) l ++ [x].
Proof.
  intros A l H. destruct (exists_last H) as (l' & x & ->). exists x. f_equal.
  rewrite app_length. cbn. replace (length l' + 1 - 1) with (length l') by lia. now rewrite firstn_app_exact.
Qed.

Lemma reuse_spec : forall src ts slice n b, ordered 0 ts b -> n < src_len src ->
  exists l, new_with_cache src n (Cache ts slice) = Some l /\
    lx_pos l = last_end (lx_toks l) /\
    Forall (fun t => tk_end t <= n) (lx_toks l) /\
    ((lx_toks l = [] /\ (n = 0 \/ forall t u r, ts = t :: u :: r -> n < tk_end u)) \/
     exists t rest, ts = lx_toks l ++ t :: rest /\ tk_end t <= n /\ Forall (fun u => n < tk_end u) rest).
Proof.
  intros src ts slice n b Ho Hn. destruct (Nat.eq_dec n 0) as [->|Hn0].
  - exists (Lexer (cursor_at src 0) []). split.
    + unfold new_with_cache. cbn. destruct ts; [reflexivity|]. now replace (src_len src <=? 0) with false by lia.
    + split; [|split; [constructor | left; auto]]. unfold lx_pos, cursor_at. cbn. now destruct (src_chunk_at src 0).
  - destruct (new_with_cache_spec src ts slice n b Ho ltac:(lia)) as (pre & post & -> & HF & HG & ->).
    set (kept := firstn (length pre - 1) pre).
    assert (HFk : Forall (fun t => tk_end t <= n) kept).
    { unfold kept. apply Forall_forall. intros x Hx. rewrite Forall_forall in HF. apply HF.
      rewrite <- (firstn_skipn (length pre - 1) pre). apply in_or_app. now left. }
    eexists. split; [reflexivity|]. cbn [lx_toks]. split.
    + unfold lx_pos, cursor_at. cbn [lx_cur]. pose proof (last_end_le kept n HFk).
      rewrite Nat.min_l by lia. now destruct (src_chunk_at src (last_end kept)).
    + split; [assumption|]. assert (Hcase : pre = [] \/ pre <> []) by (destruct pre; [left; reflexivity | right; discriminate]).
      destruct Hcase as [Epre | Epre].
      * left. split; [unfold kept; now rewrite Epre|]. right. intros t u r He. rewrite Epre in He. cbn in He. subst post.
        inv HG. inv H2. assumption.
      * right. destruct (firstn_last _ pre Epre) as (x & Hx). fold kept in Hx.
        exists x, post. rewrite Hx at 1. rewrite <- app_assoc. split; [reflexivity|]. split; [|assumption].
        rewrite Hx in HF. apply Forall_app in HF. destruct HF as [_ HF]. inversion HF; assumption.
Qed.

(** ** Incremental lexing against lexing from scratch *)

Lemma lexes_ordered : forall next text off ts, lexes next text off ts -> ordered off ts (length text).
Proof.
  induction 1 as [| off ts H1 H2 H3 H4 IH]; constructor; auto; lia.
Qed.

Lemma lexes_le : forall next text off ts, lexes next text off ts -> off <= length text.
Proof. induction 1; lia. Qed.

(** Tokens kept because a later token also ends before the change are recognised
    again in the changed text. *)
Lemma lexes_replay : forall next old new n, one_token_lookahead next ->
  firstn n old = firstn n new -> n <= length old -> n <= length new ->
  forall kept off t rest more, lexes next old off (kept ++ t :: rest) -> tk_end t <= n ->
  lexes next new (match rev kept with u :: _ => tk_end u | [] => off end) more ->
  lexes next new off (kept ++ more).
Proof.
  intros next old new n Hloc Hag Hn1 Hn2 kept. induction kept as [| k kept IH]; intros off t rest more Hl Ht Hm.
  - exact Hm.
  - cbn [app] in *. inversion Hl as [| off' ts' H1 H2 H3 H4 E1 E2]; subst.
    set (k := next old off) in *.
    assert (Hnext : exists u, next old (tk_end k) = u /\ tk_end k < length old /\ tk_end u <= n).
    { exists (next old (tk_end k)). split; [reflexivity|].
      inversion H4 as [E | off2 ts2 G1 G2 G3 G4 E1 E2].
      - destruct kept; discriminate.
      - split; [assumption|]. destruct kept as [| k2 kept'].
        + cbn in E2. injection E2 as E2 _. rewrite E2. assumption.
        + cbn in E2. injection E2 as E2 E3. rewrite E2.
          assert (Hord : ordered (tk_end k2) (kept' ++ t :: rest) (length old)).
          { rewrite <- E2, <- E3. now apply lexes_ordered with (next := next). }
          apply ordered_ends in Hord. rewrite Forall_forall in Hord.
          specialize (Hord t ltac:(apply in_or_app; right; now left)). lia. }
    destruct Hnext as (u & Hu & Hlt & Hun).
    assert (Hk : next new off = k).
    { apply (Hloc old new off); fold k; rewrite ?Hu; [assumption | lia |].
      assert (G : forall s : str, firstn (tk_end u) s = firstn (tk_end u) (firstn n s)).
      { intros s. rewrite firstn_firstn. now rewrite Nat.min_l by lia. }
      rewrite (G old), (G new), Hag. reflexivity. }
    assert (Hrest : lexes next new (tk_end k) (kept ++ more)).
    { apply (IH (tk_end k) t rest more H4 Ht). cbn [rev] in Hm.
      destruct (rev kept) as [| u' ?] eqn:Er; cbn [app] in Hm; exact Hm. }
    pose proof (lexes_le _ _ _ _ Hrest) as Hle.
    rewrite <- Hk. rewrite <- Hk in Hrest, Hle, H2, H3. apply LStep; auto; lia.
Qed.
