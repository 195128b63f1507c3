(** Lemmas about the scanners of LexModel.v. *)
From Verif Require Import Base Utf8 Utf8Facts ScanSpec SimdModel SimdProofs.
From Verif Require Import CursorModel CursorSpec CursorProofs LexModel LexSpec.

(** ** Basic steps *)

Lemma lx_current_spec : forall src text l, serves src text -> lx_placed src text l ->
  exists r l', lx_current src l = (r, l') /\ char_at text (lx_pos l) r /\
    lx_placed src text l' /\ lx_pos l' = lx_pos l /\ lx_toks l' = lx_toks l.
Proof.
  intros src text l Hs Hp. destruct (peek_char_spec src text (lx_cur l) Hs Hp) as (r & c & He & Hc & Hp' & Ho).
  exists r, (Lexer c (lx_toks l)). unfold lx_current. rewrite He. repeat split; auto; apply Hp'.
Qed.

Lemma lx_peek_byte_spec : forall src text l, serves src text -> lx_placed src text l ->
  exists l', lx_peek_byte src l = (nth_error text (lx_pos l), l') /\
    lx_placed src text l' /\ lx_pos l' = lx_pos l /\ lx_toks l' = lx_toks l.
Proof.
  intros src text l Hs Hp. destruct (peek_byte_spec src text (lx_cur l) Hs Hp) as (c & He & Hp' & Ho).
  exists (Lexer c (lx_toks l)). unfold lx_peek_byte. rewrite He. repeat split; auto; apply Hp'.
Qed.

Lemma placed_pos_le : forall src text l, lx_placed src text l -> lx_pos l <= length text.
Proof. intros src text l [_ H]. now apply is_boundary_le in H. Qed.

Lemma lx_advance_spec : forall src text l n, serves src text -> lx_placed src text l ->
  is_boundary text (lx_pos l + n) = true ->
  lx_placed src text (lx_advance src l n) /\ lx_pos (lx_advance src l n) = lx_pos l + n /\
  lx_toks (lx_advance src l n) = lx_toks l.
Proof.
  intros src text l n (Hv & Hl & _) [Hd _] Hb. pose proof (is_boundary_le _ _ Hb) as Hle.
  unfold lx_placed, placed, lx_pos, lx_advance, advance_bytes in *. cbn in *.
  rewrite Hl, Nat.min_l by lia. auto.
Qed.

Lemma read_boundary : forall text a b ch, valid text -> is_boundary text a = true ->
  reads text a b [ch] -> b = a + char_len ch /\ is_boundary text b = true /\ a < b.
Proof.
  intros text a b ch Hv Ha Hr. pose proof (reads_end _ _ _ _ Hr) as He. cbn [encode] in He.
  rewrite app_nil_r, encode_char_length in He. pose proof (char_len_pos ch).
  split; [assumption|]. split; [now apply (reads_boundary text a b [ch]) | lia].
Qed.

Lemma lx_step_char : forall src text l b ch, serves src text -> lx_placed src text l ->
  reads text (lx_pos l) b [ch] ->
  let l' := lx_advance src l (char_len ch) in
  lx_placed src text l' /\ lx_pos l' = b /\ lx_toks l' = lx_toks l /\ lx_pos l < b <= length text.
Proof.
  intros src text l b ch Hs Hp Hr. assert (Hv : valid text) by apply Hs.
  destruct (read_boundary text (lx_pos l) b ch Hv (proj2 Hp) Hr) as (-> & Hb & Hlt).
  destruct (lx_advance_spec src text l (char_len ch) Hs Hp Hb) as (H1 & H2 & H3).
  apply is_boundary_le in Hb. repeat split; auto; apply H1.
Qed.

Lemma reads_nil : forall text a, a <= length text -> reads text a a [].
Proof.
  intros text a H. split; [constructor|]. split; [lia|]. unfold substr. now rewrite Nat.sub_diag.
Qed.

Lemma reads_of_boundaries : forall text a b, valid text -> a <= b ->
  is_boundary text a = true -> is_boundary text b = true ->
  exists cs, reads text a b cs.
Proof.
  intros text a b Hv Hab Ha Hb. destruct (valid_substr text a b Hv Hab Ha Hb) as (cs & Hs & He).
  exists cs. apply is_boundary_le in Hb. repeat split; auto; lia.
Qed.

(** ** String literals *)

Definition plain (q : Z) (e : option Z) (c : Z) : Prop := c <> q /\ e <> Some c.

Lemma body_plain_app : forall q e cs cs', Forall (plain q e) cs -> literal_body q e cs' ->
  literal_body q e (cs ++ cs').
Proof. induction 1 as [| c cs [H1 H2] _ IH]; intros H'; simpl; [assumption | constructor; auto]. Qed.

Lemma ends_plain : forall q e text a m b cs, reads text a m cs -> Forall (plain q e) cs ->
  literal_ends q e text m b -> literal_ends q e text a b.
Proof.
  intros q e text a m b cs Hr Hpl [(m' & cs' & Hr' & Hb & Hq) | (-> & cs' & Hr' & Hb)].
  - left. exists m', (cs ++ cs'). split; [now apply (reads_app _ _ m)|]. split; [now apply body_plain_app | assumption].
  - right. split; [reflexivity|]. exists (cs ++ cs'). split; [now apply (reads_app _ _ m)|].
    destruct Hb as [Hb | (c2 & x & He & -> & Hb)]; [left; now apply body_plain_app|].
    right. exists (cs ++ c2), x. rewrite app_assoc. repeat split; auto. now apply body_plain_app.
Qed.

Lemma ends_escape : forall q e text a m b x c, reads text a m [x; c] -> e = Some x ->
  literal_ends q e text m b -> literal_ends q e text a b.
Proof.
  intros q e text a m b x c Hr He [(m' & cs' & Hr' & Hb & Hq) | (-> & cs' & Hr' & Hb)].
  - left. exists m', ([x; c] ++ cs'). split; [now apply (reads_app _ _ m)|]. split; [now constructor | assumption].
  - right. split; [reflexivity|]. exists ([x; c] ++ cs'). split; [now apply (reads_app _ _ m)|].
    destruct Hb as [Hb | (c2 & y & He' & -> & Hb)]; [left; now constructor|].
    right. exists (x :: c :: c2), y. repeat split; auto. now constructor.
Qed.

Lemma ends_dangling : forall q e text a x, reads text a (length text) [x] -> e = Some x ->
  literal_ends q e text a (length text).
Proof.
  intros. right. split; [reflexivity|]. exists [x]. split; [assumption|].
  right. exists [], x. repeat split; auto. constructor.
Qed.

Lemma ends_close : forall q e text a b, reads text a b [q] -> literal_ends q e text a b.
Proof.
  intros q e text a b H. left. exists a, []. split; [|split; [constructor | assumption]].
  destruct H as (_ & H & _). apply reads_nil. lia.
Qed.

Lemma ends_eof : forall q e text, literal_ends q e text (length text) (length text).
Proof. intros. right. split; [reflexivity|]. exists []. split; [now apply reads_nil | left; constructor]. Qed.

Lemma encode_ascii_in : forall cs c, In c cs -> (c < 128)%Z -> In c (encode cs).
Proof.
  induction cs as [| d cs IH]; intros c Hin Hc; [contradiction|]. cbn [encode].
  apply in_or_app. destruct Hin as [-> | Hin]; [left | right; now apply IH].
  unfold encode_char. replace (c <? 128)%Z with true by lia. now left.
Qed.

Lemma nth_error_firstn_in : forall (A : Type) (l : list A) n x, In x (firstn n l) ->
  exists i, i < n /\ nth_error l i = Some x.
Proof.
  intros A l n x H. apply In_nth_error in H. destruct H as [i Hi]. exists i.
  assert (i < length (firstn n l)) by (apply nth_error_Some; congruence).
  rewrite firstn_length in H. split; [lia|]. rewrite nth_error_firstn in Hi by lia. assumption.
Qed.

Lemma slow_loop_spec : forall src text q e, serves src text ->
  forall fuel l, lx_placed src text l -> length text - lx_pos l < fuel ->
  exists b l', slow_loop src q e fuel l = Some (b, l') /\ lx_placed src text l' /\
    lx_toks l' = lx_toks l /\ literal_ends q e text (lx_pos l) (lx_pos l') /\ lx_pos l <= lx_pos l'.
Proof.
  intros src text q e Hs. induction fuel as [| f IH]; intros l Hp Hf; [lia|].
  cbn [slow_loop]. destruct (lx_current_spec src text l Hs Hp) as (r & l1 & -> & Hc & Hp1 & Ho1 & Ht1).
  pose proof (placed_pos_le _ _ _ Hp) as Hle.
  destruct r as [ch|].
  - destruct Hc as [m Hm]. rewrite <- Ho1 in Hm.
    destruct (lx_step_char src text l1 m ch Hs Hp1 Hm) as (Hp2 & Ho2 & Ht2 & Hlt). cbv zeta in *.
    set (l2 := lx_advance src l1 (char_len ch)) in *.
    destruct (match e with Some x => (ch =? x)%Z | None => false end) eqn:Ee.
    + assert (He : e = Some ch) by (destruct e; [f_equal; lia | discriminate]).
      destruct (lx_current_spec src text l2 Hs Hp2) as (r & l3 & -> & Hc & Hp3 & Ho3 & Ht3).
      destruct r as [next|].
      * destruct Hc as [m2 Hm2]. rewrite <- Ho3 in Hm2.
        destruct (lx_step_char src text l3 m2 next Hs Hp3 Hm2) as (Hp4 & Ho4 & Ht4 & Hlt4). cbv zeta in *.
        destruct (IH _ Hp4) as (b & l' & -> & Hp' & Ht' & He' & Hle'); [lia|].
        exists b, l'. split; [reflexivity|]. split; [assumption|]. split; [congruence|].
        split; [|lia]. rewrite Ho4 in He'. apply (ends_escape q e text _ m2 _ ch next); auto.
        change [ch; next] with ([ch] ++ [next]). rewrite <- Ho1. apply (reads_app _ _ m); [assumption|].
        rewrite <- Ho2, <- Ho3. assumption.
      * cbn [char_at] in Hc. destruct (IH _ Hp3) as (b & l' & -> & Hp' & Ht' & He' & Hle'); [lia|].
        exists b, l'. split; [reflexivity|]. split; [assumption|]. split; [congruence|].
        pose proof (placed_pos_le _ _ _ Hp') as Hle2. split; [|lia].
        replace (lx_pos l') with (length text) by lia. apply (ends_dangling q e text _ ch); [|assumption].
        rewrite <- Ho1. replace (length text) with m by lia. assumption.
    + destruct (ch =? q)%Z eqn:Eq.
      * assert (ch = q) by lia. subst ch. exists true, l2. split; [reflexivity|]. split; [assumption|].
        split; [congruence|]. split; [|lia]. apply ends_close. rewrite <- Ho1, Ho2. assumption.
      * destruct (IH _ Hp2) as (b & l' & -> & Hp' & Ht' & He' & Hle'); [lia|].
        exists b, l'. split; [reflexivity|]. split; [assumption|]. split; [congruence|]. split; [|lia].
        rewrite Ho2 in He'. apply (ends_plain q e text _ m _ [ch]); [rewrite <- Ho1; assumption | | assumption].
        constructor; [|constructor]. split; [lia|]. intros ->. rewrite Z.eqb_refl in Ee. discriminate.
  - cbn [char_at] in Hc. exists false, l1. split; [reflexivity|]. split; [assumption|]. split; [assumption|].
    rewrite Ho1. replace (lx_pos l) with (length text) by lia. split; [apply ends_eof | lia].
Qed.

Lemma fast_loop_spec : forall src text q escape, serves src text ->
  let e := match escape with Some x => x | None => q end in
  (0 <= q < 128)%Z -> (0 <= e < 128)%Z ->
  forall fuel l, lx_placed src text l -> length text - lx_pos l < fuel ->
  exists b l', fast_loop src q e fuel l = Some (b, l') /\ lx_placed src text l' /\
    lx_toks l' = lx_toks l /\ literal_ends q escape text (lx_pos l) (lx_pos l') /\ lx_pos l <= lx_pos l'.
Proof.
  intros src text q escape Hs e Hq He. assert (Hv : valid text) by apply Hs.
  induction fuel as [| f IH]; intros l Hp Hf; [lia|].
  cbn [fast_loop]. pose proof (placed_pos_le _ _ _ Hp) as Hle.
  destruct (rest_spec src text (lx_cur l) Hs Hp) as (c & -> & Hc).
  destruct (ensure_placed src text (lx_cur l) Hs Hp) as (Hpc & Hoc & Hrange & Hlast).
  destruct (ensure_text src text (lx_cur l) Hs Hp) as (_ & _ & Hvr & Hce & Hbe).
  cbv zeta in *. rewrite <- Hc in *. clear Hc. fold (lx_pos l) in *.
  set (r := substr text (lx_pos l) (cu_end c)) in *.
  assert (Hlr : length r = cu_end c - lx_pos l) by (apply substr_length; lia).
  set (l1 := Lexer c (lx_toks l)).
  assert (Hp1 : lx_placed src text l1) by assumption.
  assert (Ho1 : lx_pos l1 = lx_pos l) by assumption.
  destruct r as [| x0 r0] eqn:Er.
  { assert (lx_pos l = length text). { destruct (Nat.lt_ge_cases (lx_pos l) (length text)) as [H|H]; [|lia]. specialize (Hlast H). cbn in Hlr. lia. }
    exists false, l1. split; [reflexivity|]. split; [assumption|]. split; [reflexivity|].
    rewrite Ho1, H. split; [apply ends_eof | lia]. }
  rewrite <- Er in *. assert (Hr0 : 0 < length r) by (rewrite Er; cbn; lia). clear Er x0 r0.
  destruct (find_first_of_4_ok r q e q e) as (res & -> & Hfp).
  assert (Hplain : forall k cs, k <= length r -> (forall i x, i < k -> nth_error r i = Some x -> ~ (x = q \/ x = e)) ->
            firstn k r = encode cs -> Forall (plain q escape) cs).
  { intros k cs Hk Hno Heq. rewrite Forall_forall. intros ch Hin. split.
    - intros ->. assert (Hin' : In q (firstn k r)) by (rewrite Heq; apply encode_ascii_in; [assumption|lia]).
      apply nth_error_firstn_in in Hin'. destruct Hin' as (i & Hi & Hn). apply (Hno i q Hi Hn). now left.
    - intros ->. unfold e in *. assert (Hin' : In ch (firstn k r)) by (rewrite Heq; apply encode_ascii_in; [assumption|lia]).
      apply nth_error_firstn_in in Hin'. destruct Hin' as (i & Hi & Hn). apply (Hno i ch Hi Hn). now right. }
  destruct res as [pos|]; unfold first_position in Hfp.
  - destruct Hfp as ((x & Hnx & Hx) & Hbefore).
    assert (Hposlt : pos < length r) by (apply nth_error_Some; congruence).
    rewrite Hnx.
    assert (Hxa : (0 <= x < 128)%Z) by (destruct Hx as [-> | [-> | [-> | ->]]]; lia).
    assert (Hnt : nth_error text (lx_pos l + pos) = Some x).
    { rewrite <- Hnx. unfold r, substr. rewrite nth_error_firstn by lia. now rewrite nth_error_skipn. }
    destruct (ascii_step_boundary text (lx_pos l + pos) x Hv Hnt Hxa) as (Hb1 & Hb2).
    assert (Hb1' : is_boundary text (lx_pos l1 + pos) = true) by (rewrite Ho1; assumption).
    destruct (lx_advance_spec src text l1 pos Hs Hp1 Hb1') as (Hp2 & Ho2 & Ht2).
    set (l2 := lx_advance src l1 pos) in *.
    assert (Hrx : reads text (lx_pos l2) (S (lx_pos l + pos)) [x]).
    { rewrite Ho2, Ho1. split; [constructor; [left; lia | constructor]|].
      assert (lx_pos l + pos < length text) by (apply nth_error_Some; congruence). split; [lia|].
      unfold substr. replace (S (lx_pos l + pos) - (lx_pos l + pos)) with 1 by lia.
      rewrite (skipn_cons_nth_error Z _ _ _ Hnt). cbn [firstn encode]. unfold encode_char.
      now replace (x <? 128)%Z with true by lia. }
    assert (Hb2' : is_boundary text (lx_pos l2 + 1) = true) by (rewrite Ho2, Ho1, Nat.add_1_r; assumption).
    destruct (lx_advance_spec src text l2 1 Hs Hp2 Hb2') as (Hp3 & Ho3 & Ht3).
    set (l3 := lx_advance src l2 1) in *.
    assert (Ho3' : lx_pos l3 = S (lx_pos l + pos)) by lia.
    destruct (reads_of_boundaries text (lx_pos l) (lx_pos l + pos) Hv) as (cs & Hcs); [lia | apply Hp | assumption |].
    assert (Hpl : Forall (plain q escape) cs).
    { apply (Hplain pos cs); [lia | | ].
      - intros i y Hi Hy Hc'. specialize (Hbefore i y Hi Hy). tauto.
      - destruct Hcs as (_ & _ & Hcs). rewrite <- Hcs. unfold r, substr. rewrite firstn_firstn.
        f_equal. lia. }
    assert (Hp2l : lx_pos l2 = lx_pos l + pos) by lia.
    destruct (x =? q)%Z eqn:Exq.
    + assert (x = q) by lia. subst x. exists true, l3. split; [reflexivity|]. split; [assumption|].
      split; [rewrite Ht3, Ht2; reflexivity|]. split; [|lia].
      apply (ends_plain q escape text _ (lx_pos l + pos) _ cs Hcs Hpl).
      apply ends_close. rewrite Ho3'. rewrite <- Hp2l at 1. assumption.
    + assert (Hxe : escape = Some x).
      { unfold e in *. destruct escape as [y|]; [|lia]. f_equal. lia. }
      destruct (lx_current_spec src text l3 Hs Hp3) as (rr & l4 & -> & Hcc & Hp4 & Ho4 & Ht4).
      destruct rr as [next|].
      * destruct Hcc as [m2 Hm2]. rewrite <- Ho4 in Hm2.
        destruct (lx_step_char src text l4 m2 next Hs Hp4 Hm2) as (Hp5 & Ho5 & Ht5 & Hlt5). cbv zeta in *.
        destruct (IH _ Hp5) as (b & l' & -> & Hp' & Ht' & He' & Hle'); [lia|].
        exists b, l'. split; [reflexivity|]. split; [assumption|]. split; [rewrite Ht', Ht5, Ht4, Ht3, Ht2; reflexivity|].
        split; [|lia]. rewrite Ho5 in He'.
        apply (ends_plain q escape text _ (lx_pos l + pos) _ cs Hcs Hpl).
        apply (ends_escape q escape text _ m2 _ x next); auto.
        change [x; next] with ([x] ++ [next]). apply (reads_app _ _ (S (lx_pos l + pos))).
        -- rewrite <- Hp2l at 1. assumption.
        -- rewrite <- Ho3', <- Ho4. assumption.
      * cbn [char_at] in Hcc. destruct (IH _ Hp4) as (b & l' & -> & Hp' & Ht' & He' & Hle'); [lia|].
        exists b, l'. split; [reflexivity|]. split; [assumption|]. split; [rewrite Ht', Ht4, Ht3, Ht2; reflexivity|].
        pose proof (placed_pos_le _ _ _ Hp') as Hle2. split; [|lia].
        apply (ends_plain q escape text _ (lx_pos l + pos) _ cs Hcs Hpl).
        replace (lx_pos l') with (length text) by lia. apply (ends_dangling q escape text _ x); [|assumption].
        rewrite <- Hp2l. replace (length text) with (S (lx_pos l + pos)) by lia. assumption.
  - assert (Hend : lx_pos l + length r = cu_end c) by lia.
    assert (Hb1' : is_boundary text (lx_pos l1 + length r) = true) by (rewrite Ho1, Hend; assumption).
    destruct (lx_advance_spec src text l1 (length r) Hs Hp1 Hb1') as (Hp2 & Ho2 & Ht2).
    destruct (IH _ Hp2) as (b & l' & -> & Hp' & Ht' & He' & Hle'); [lia|].
    exists b, l'. split; [reflexivity|]. split; [assumption|]. split; [rewrite Ht', Ht2; reflexivity|].
    split; [|lia].
    destruct Hvr as (cs & Hsc & Hcs).
    assert (Hrd : reads text (lx_pos l) (cu_end c) cs) by (repeat split; auto; lia).
    rewrite Ho2, Ho1, Hend in He'. apply (ends_plain q escape text _ (cu_end c) _ cs Hrd); [|assumption].
    apply (Hplain (length r) cs); [lia | | now rewrite firstn_all].
    intros i y Hi Hy Hc'. apply (Hfp i y Hy). tauto.
Qed.

Lemma scan_string_spec : forall src text quotes escape kind l,
  serves src text -> lx_placed src text l ->
  match escape with Some x => is_scalar x | None => True end ->
  exists b l', scan_string src quotes escape kind l = Some (b, l') /\ lx_placed src text l' /\
    if b then lx_pos l <= lx_pos l' /\ emits kind l l' /\
      exists q m, In q quotes /\ reads text (lx_pos l) m [q] /\
        literal_ends q escape text m (lx_pos l')
    else declines l l' /\ forall q m, reads text (lx_pos l) m [q] -> ~ In q quotes.
Proof.
  intros src text quotes escape kind l Hs Hp Hesc. unfold scan_string.
  destruct (lx_current_spec src text l Hs Hp) as (r & l1 & -> & Hc & Hp1 & Ho1 & Ht1).
  destruct r as [q|].
  - destruct Hc as [m Hm]. destruct (existsb (Z.eqb q) quotes) eqn:Eq.
    + apply existsb_exists in Eq. destruct Eq as (q' & Hin & Heq). assert (q' = q) by lia. subst q'. clear Heq.
      rewrite <- Ho1 in Hm. destruct (lx_step_char src text l1 m q Hs Hp1 Hm) as (Hp2 & Ho2 & Ht2 & Hlt). cbv zeta in *.
      set (l2 := lx_advance src l1 (char_len q)) in *.
      assert (Hf : length text - lx_pos l2 < scan_fuel src).
      { unfold scan_fuel. destruct Hs as (_ & -> & _). lia. }
      assert (Hq0 : (0 <= q)%Z).
      { destruct Hm as (Hsc & _). inv Hsc. unfold is_scalar in *. lia. }
      destruct ((q <? 128)%Z && match escape with Some x => (x <? 128)%Z | None => true end) eqn:Ef.
      * edestruct (fast_loop_spec src text q escape Hs) with (l := l2) (fuel := scan_fuel src)
          as (b & l3 & -> & Hp3 & Ht3 & He3 & Hle3); try eassumption.
        { lia. }
        { destruct escape as [x|]; [|lia]. unfold is_scalar in Hesc. lia. }
        exists true, (add_token l3 kind (lx_pos l) (lx_pos l3)). split; [reflexivity|]. split; [assumption|].
        unfold emits, add_token, lx_pos in *. cbn in *. split; [lia|]. split; [congruence|].
        exists q, m. split; [assumption|]. split; [now rewrite <- Ho1|]. now rewrite <- Ho2.
      * edestruct (slow_loop_spec src text q escape Hs) with (l := l2) (fuel := scan_fuel src)
          as (b & l3 & -> & Hp3 & Ht3 & He3 & Hle3); try eassumption.
        exists true, (add_token l3 kind (lx_pos l) (lx_pos l3)). split; [reflexivity|]. split; [assumption|].
        unfold emits, add_token, lx_pos in *. cbn in *. split; [lia|]. split; [congruence|].
        exists q, m. split; [assumption|]. split; [now rewrite <- Ho1|]. now rewrite <- Ho2.
    + exists false, l1. split; [reflexivity|]. split; [assumption|]. split; [split; auto|].
      intros q' m' Hr Hin. destruct (reads_unique _ _ _ _ _ _ Hm Hr) as (<- & _).
      assert (existsb (Z.eqb q) quotes = true) by (apply existsb_exists; exists q; split; [assumption | lia]).
      congruence.
  - cbn [char_at] in Hc. exists false, l1. split; [reflexivity|]. split; [assumption|]. split; [split; auto|].
    intros q' m' Hr _. apply reads_nonempty in Hr. lia.
Qed.

(** The end of a literal is determined by the text. *)
Fixpoint lit_scan (q : Z) (e : option Z) (cs : list Z) : nat :=
  match cs with
  | [] => 0
  | c :: r =>
      if match e with Some x => (c =? x)%Z | None => false end then
        match r with [] => 1 | _ :: r' => 2 + lit_scan q e r' end
      else if (c =? q)%Z then 1 else 1 + lit_scan q e r
  end.

Lemma lit_scan_body : forall q e, e <> Some q -> forall bd, literal_body q e bd ->
  (forall tl, lit_scan q e (bd ++ q :: tl) = length bd + 1) /\
  lit_scan q e bd = length bd /\
  (forall x, e = Some x -> lit_scan q e (bd ++ [x]) = length bd + 1).
Proof.
  intros q e Hne bd H. induction H as [| c cs Hc He H (IH1 & IH2 & IH3) | x c cs He H (IH1 & IH2 & IH3)].
  - split; [|split; [reflexivity|]].
    + intros tl. cbn. destruct e as [x|]; [|now rewrite Z.eqb_refl].
      destruct (q =? x)%Z eqn:E; [exfalso; apply Hne; f_equal; lia | now rewrite Z.eqb_refl].
    + intros x ->. cbn. now rewrite Z.eqb_refl.
  - assert (Hf : match e with Some x => (c =? x)%Z | None => false end = false).
    { destruct e as [x|]; [|reflexivity]. destruct (c =? x)%Z eqn:E; [exfalso; apply He; f_equal; lia | reflexivity]. }
    assert (Hq : (c =? q)%Z = false) by lia.
    split; [|split]; intros; cbn [lit_scan app length]; rewrite Hf, Hq.
    + now rewrite IH1.
    + now rewrite IH2.
    + now rewrite IH3.
  - subst e. split; [|split]; intros; cbn [lit_scan app length]; rewrite Z.eqb_refl.
    + now rewrite IH1.
    + now rewrite IH2.
    + now rewrite IH3.
Qed.

Lemma reads_suffix_chars : forall text a b cs, valid text -> is_boundary text a = true ->
  reads text a b cs -> chars (skipn a text) = cs ++ chars (skipn b text).
Proof.
  intros text a b cs Hv Ha Hr. pose proof (reads_boundary _ _ _ _ Hv Ha Hr) as Hb.
  destruct Hr as (Hs & Hab & He). rewrite (suffix_split text a b) by lia.
  rewrite He, chars_app, chars_encode; auto.
  - now apply valid_encode.
  - now apply valid_split.
Qed.

Lemma literal_ends_scan : forall q e text a b, e <> Some q -> valid text -> is_boundary text a = true ->
  literal_ends q e text a b ->
  exists cs, reads text a b cs /\ length cs = lit_scan q e (chars (skipn a text)).
Proof.
  intros q e text a b Hne Hv Ha [(m & cs & Hr & Hb & Hq) | (-> & cs & Hr & Hb)].
  - pose proof (reads_boundary _ _ _ _ Hv Ha Hr) as Hm.
    exists (cs ++ [q]). split; [now apply (reads_app _ _ m)|].
    rewrite (reads_suffix_chars text a m cs), (reads_suffix_chars text m b [q]) by assumption.
    destruct (lit_scan_body q e Hne cs Hb) as (H1 & _). cbn [app]. rewrite H1. now rewrite app_length.
  - exists cs. split; [assumption|]. rewrite (reads_suffix_chars text a (length text) cs) by assumption.
    rewrite skipn_all, app_nil_r. destruct Hb as [Hb | (c2 & x & He & -> & Hb)].
    + destruct (lit_scan_body q e Hne cs Hb) as (_ & H2 & _). now rewrite H2.
    + destruct (lit_scan_body q e Hne c2 Hb) as (_ & _ & H3). rewrite H3 by assumption. now rewrite app_length.
Qed.

Lemma reads_length_unique : forall text cs a b cs' b',
  reads text a b cs -> reads text a b' cs' -> length cs = length cs' -> b = b'.
Proof.
  induction cs as [| c cs IH]; intros a b cs' b' H1 H2 Hl; destruct cs' as [| c' cs']; try discriminate.
  - apply reads_end in H1. apply reads_end in H2. cbn in *. lia.
  - apply reads_cons in H1. apply reads_cons in H2. destruct H1 as (m & Hm & H1), H2 as (m' & Hm' & H2).
    destruct (reads_unique _ _ _ _ _ _ Hm Hm') as (_ & <-). cbn in Hl. apply (IH m b cs' b'); auto.
Qed.

Lemma literal_ends_unique : forall q e text a b b', e <> Some q -> valid text ->
  is_boundary text a = true -> literal_ends q e text a b -> literal_ends q e text a b' -> b = b'.
Proof.
  intros q e text a b b' Hne Hv Ha H1 H2.
  destruct (literal_ends_scan q e text a b) as (cs & Hr & Hl); auto.
  destruct (literal_ends_scan q e text a b') as (cs' & Hr' & Hl'); auto.
  apply (reads_length_unique text cs a b cs' b' Hr Hr'). congruence.
Qed.

(** ** Comments *)

Definition nearby (src : source) (text : str) (l : lexer) : Prop :=
  lx_placed src text l \/
  (delivered src text (cu_start (lx_cur l)) (cu_text (lx_cur l)) /\
   cu_start (lx_cur l) <= lx_pos l < cu_end (lx_cur l)).

Lemma until_boundary' : forall x s, valid s -> is_cont x = false ->
  is_boundary s (span_len (fun b => negb (b =? x)%Z) s) = true.
Proof.
  intros x s Hv Hx.
  destruct (span_len_run (fun b => negb (b =? x)%Z) (fun b => b <> x) s ltac:(lia)) as (Hle & _ & Hno).
  set (n := span_len _ _) in *. destruct (nth_error s n) as [b|] eqn:En.
  - assert (b = x) as -> by (destruct (Z.eq_dec b x) as [->|Hne]; [reflexivity | now destruct (Hno b eq_refl)]).
    unfold is_boundary. destruct n; [reflexivity|]. now rewrite En, Hx.
  - apply nth_error_None in En. replace n with (length s) by lia. apply is_boundary_length.
Qed.

Lemma run_app_full : forall P s t n, Forall P s -> longest_run P t n -> longest_run P (s ++ t) (length s + n).
Proof.
  intros P s t n HF (H1 & H2 & H3). split; [rewrite app_length; lia|]. split.
  - intros k b Hk Hn. destruct (Nat.lt_ge_cases k (length s)) as [H|H].
    + rewrite nth_error_app1 in Hn by assumption. rewrite Forall_forall in HF. apply HF. eapply nth_error_In; eassumption.
    + rewrite nth_error_app2 in Hn by assumption. apply (H2 (k - length s)); [lia | assumption].
  - intros b Hn. rewrite nth_error_app2 in Hn by lia. apply H3.
    replace (length s + n - length s) with n in Hn by lia. assumption.
Qed.

(** [skip_until] and the byte-wise [take_while_byte] with the same condition. *)
Lemma until_placed : forall src text c x scan, serves src text -> placed src text c -> is_cont x = false ->
  (forall t, scan t = Some (span_len (fun b => negb (b =? x)%Z) t, span_len (fun b => negb (b =? x)%Z) t <? length t)) ->
  forall fuel, length text - cu_off c < fuel ->
  exists c' n, scan_loop src scan fuel c = Some c' /\ placed src text c' /\ cu_off c' = cu_off c + n /\
    longest_run (fun b => b <> x) (skipn (cu_off c) text) n.
Proof.
  intros src text c x scan Hs Hc Hx Hscan fuel Hf. assert (Hv : valid text) by apply Hs.
  set (p := fun b => negb (b =? x)%Z) in *.
  destruct (scan_loop_spec src text Hs (span_len p) scan eq_refl) with (c := c) (fuel := fuel)
    as (c' & H1 & H2 & H3); [|assumption|assumption|].
  - intros t _. rewrite Hscan. eexists _, _. split; [reflexivity|].
    pose proof (span_len_le p t). split; intros Hst; [|split; [lia|]]; intros r _;
      rewrite span_len_app, Hst; reflexivity.
  - exists c', (span_len p (skipn (cu_off c) text)). split; [exact H1|]. destruct Hc as [Hd Hb].
    split; [split; [assumption|]|].
    + rewrite H2, boundary_skipn by assumption. apply until_boundary'; [|assumption]. now apply valid_split.
    + split; [assumption|]. apply span_len_run. unfold p. lia.
Qed.

Lemma until_nearby : forall src text l x, serves src text -> nearby src text l -> is_cont x = false ->
  exists l' n, lx_scan l (cursor_skip_until src x (lx_cur l)) = Some l' /\ lx_placed src text l' /\
    lx_toks l' = lx_toks l /\ lx_pos l' = lx_pos l + n /\
    longest_run (fun b => b <> x) (skipn (lx_pos l) text) n.
Proof.
  intros src text l x Hs Hn Hx. assert (Hv : valid text) by apply Hs.
  set (p := fun b => negb (b =? x)%Z).
  assert (Hscan : forall t, scan_simd (fun t => skip_until t x) t = Some (span_len p t, span_len p t <? length t)).
  { intros t. unfold scan_simd. now rewrite skip_until_span. }
  assert (Hlen : src_len src = length text) by apply Hs.
  unfold cursor_skip_until, scan_fuel. destruct Hn as [Hp | (Hd & Hr)].
  - destruct (until_placed src text (lx_cur l) x _ Hs Hp Hx Hscan (S (src_len src)))
      as (c' & n & -> & H1 & H2 & H3); [lia|].
    exists (Lexer c' (lx_toks l)), n. repeat split; auto; try apply H1; try apply H3.
  - destruct l as [[off st t] toks]. unfold lx_pos, cu_end in *. cbn [lx_cur lx_toks cu_off cu_start cu_text] in *.
    pose proof Hd as (Hpc & _). pose proof Hpc as (Hle & _ & Hb1 & Hb2).
    cbn [scan_loop]. unfold ensure_chunk, cu_end. cbn [cu_off cu_start cu_text].
    rewrite Hlen. replace (length text <? off) with false by lia.
    replace ((off <? st) || (st + length t <? off) || ((off =? st + length t) && (off <? length text))) with false by lia.
    cbn [cu_off cu_start cu_text]. replace (off - st <? length t) with true by lia.
    rewrite (piece_suffix text) by (assumption || lia).
    assert (Hsl : length (substr text off (st + length t)) = st + length t - off) by (apply substr_length; lia).
    set (r := substr text off (st + length t)) in *.
    assert (Hsplit : skipn off text = r ++ skipn (st + length t) text) by (apply suffix_split; lia).
    destruct r as [| r0 r1] eqn:Er; [cbn in Hsl; lia|]. rewrite <- Er in *. clear Er r0 r1.
    rewrite Hscan. set (k := span_len p r). pose proof (span_len_le p r). fold k in H.
    destruct (span_len_run p (fun b => b <> x) r) as (_ & Hk2 & Hk3); [unfold p; lia|]. fold k in Hk2, Hk3.
    destruct (k <? length r) eqn:Ek; cbn [orb].
    + exists (Lexer (Cursor (off + k) st t) toks), k.
      assert (Hrun : longest_run (fun b => b <> x) (skipn off text) k).
      { rewrite Hsplit. split; [rewrite app_length; lia|]. split.
        - intros i b Hi Hb. rewrite nth_error_app1 in Hb by lia. now apply (Hk2 i).
        - intros b Hb. rewrite nth_error_app1 in Hb by lia. now apply Hk3. }
      split; [reflexivity|]. split; [|repeat split; auto; apply Hrun].
      split; [exact Hd|]. cbn [lx_cur cu_off].
      destruct (nth_error text (off + k)) as [b|] eqn:Eb.
      * assert (b = x).
        { destruct (Z.eq_dec b x) as [->|Hne]; [reflexivity|]. exfalso.
          destruct Hrun as (_ & _ & Hstop). rewrite <- nth_error_skipn in Eb. now apply (Hstop b). }
        subst b. unfold is_boundary. destruct (off + k); [reflexivity|]. now rewrite Eb, Hx.
      * apply nth_error_None in Eb. lia.
    + assert (k = length r) by lia.
      assert (HFr : Forall (fun b => b <> x) r).
      { rewrite Forall_forall. intros b Hin. apply In_nth_error in Hin. destruct Hin as [i Hi].
        apply (Hk2 i b); [|assumption]. assert (i < length r) by (apply nth_error_Some; congruence). lia. }
      assert (Hpl2 : placed src text (Cursor (off + k) st t)).
      { split; [exact Hd|]. cbn. replace (off + k) with (st + length t) by lia. assumption. }
      destruct (length text <=? off + k) eqn:Eend.
      * exists (Lexer (Cursor (off + k) st t) toks), k. split; [reflexivity|]. split; [exact Hpl2|].
        split; [reflexivity|]. split; [reflexivity|]. rewrite Hsplit, H0.
        replace (length r) with (length r + 0) by lia. apply run_app_full; [assumption|].
        split; [lia|]. split; [intros; lia|]. intros b Hb. rewrite nth_error_skipn in Hb.
        assert (st + length t + 0 < length text) by (apply nth_error_Some; congruence). lia.
      * destruct (until_placed src text _ x _ Hs Hpl2 Hx Hscan (length text)) as (c' & n & Heq & Hp' & Ho' & Hrun).
        { cbn [cu_off]. lia. }
        cbn [cu_off] in *. rewrite Heq.
        exists (Lexer c' toks), (k + n). split; [reflexivity|]. split; [exact Hp'|]. split; [reflexivity|].
        split; [cbn [lx_cur]; lia|]. rewrite Hsplit, H0. apply run_app_full; [assumption|].
        replace (st + length t) with (off + k) by lia. assumption.
Qed.

(** After looking at a byte the chunk holding it is loaded. *)
Lemma peek_byte_loads : forall src text l, serves src text -> nearby src text l ->
  exists l', lx_peek_byte src l = (nth_error text (lx_pos l), l') /\ nearby src text l' /\
    lx_pos l' = lx_pos l /\ lx_toks l' = lx_toks l /\
    delivered src text (cu_start (lx_cur l')) (cu_text (lx_cur l')) /\
    (lx_pos l < length text -> cu_start (lx_cur l') <= lx_pos l < cu_end (lx_cur l')).
Proof.
  intros src text [c toks] Hs Hn. unfold lx_peek_byte, peek_byte, nearby, lx_pos, lx_placed in *.
  cbn [lx_cur lx_toks] in *.
  assert (Hfast : delivered src text (cu_start c) (cu_text c) ->
            cu_start c <= cu_off c < cu_end c ->
            nth_error (cu_text c) (cu_off c - cu_start c) = nth_error text (cu_off c)).
  { intros (Hpc & _) Hr. unfold cu_end in Hr. now apply (piece_nth text). }
  destruct (cu_start c <=? cu_off c) eqn:E1; [destruct (cu_off c - cu_start c <? length (cu_text c)) eqn:E2|].
  - assert (Hr : cu_start c <= cu_off c < cu_end c) by (unfold cu_end; lia).
    assert (Hd : delivered src text (cu_start c) (cu_text c)) by (destruct Hn as [[Hd _] | [Hd _]]; exact Hd).
    rewrite Hfast by assumption. exists (Lexer c toks). split; [reflexivity|]. cbn [lx_cur]. auto 10.
  - destruct Hn as [Hp | [_ Hr]]; [|unfold cu_end in Hr; lia].
    destruct (ensure_placed src text c Hs Hp) as (Hp' & Ho & Hr & Hlast). cbv zeta in *.
    pose proof (is_boundary_le _ _ (proj2 Hp)) as Hle.
    exists (Lexer (ensure_chunk src c) toks). cbn [lx_cur lx_toks]. rewrite Ho.
    split; [|split; [now left|]; split; [reflexivity|]; split; [reflexivity|]; split; [apply Hp' | intros H; specialize (Hlast H); lia]].
    f_equal. destruct (Nat.lt_ge_cases (cu_off c) (length text)) as [H|H].
    + destruct Hp' as ((Hpc & _) & _). apply (piece_nth text); [assumption|]. specialize (Hlast H). unfold cu_end in *. lia.
    + assert (HN : nth_error text (cu_off c) = None) by (apply nth_error_None; lia). rewrite HN.
      apply nth_error_None. destruct Hp' as (((Hpl & _) & _) & _). unfold cu_end in *. lia.
  - destruct Hn as [Hp | [_ Hr]]; [|unfold cu_end in Hr; lia].
    destruct (ensure_placed src text c Hs Hp) as (Hp' & Ho & Hr & Hlast). cbv zeta in *.
    pose proof (is_boundary_le _ _ (proj2 Hp)) as Hle.
    exists (Lexer (ensure_chunk src c) toks). cbn [lx_cur lx_toks]. rewrite Ho.
    split; [|split; [now left|]; split; [reflexivity|]; split; [reflexivity|]; split; [apply Hp' | intros H; specialize (Hlast H); lia]].
    f_equal. destruct (Nat.lt_ge_cases (cu_off c) (length text)) as [H|H].
    + destruct Hp' as ((Hpc & _) & _). apply (piece_nth text); [assumption|]. specialize (Hlast H). unfold cu_end in *. lia.
    + assert (HN : nth_error text (cu_off c) = None) by (apply nth_error_None; lia). rewrite HN.
      apply nth_error_None. destruct Hp' as (((Hpl & _) & _) & _). unfold cu_end in *. lia.
Qed.

Lemma advance_byte_nearby : forall src text l, serves src text -> lx_placed src text l ->
  let l' := lx_advance_byte src l in
  nearby src text l' /\ lx_toks l' = lx_toks l /\
  (lx_pos l < length text -> lx_pos l' = S (lx_pos l)) /\
  (length text <= lx_pos l -> lx_pos l' = lx_pos l).
Proof.
  intros src text l Hs Hp. cbv zeta. unfold lx_advance_byte, advance_byte.
  destruct (peek_byte_loads src text l Hs (or_introl Hp)) as (l1 & He & Hn & Ho & Ht & Hd & Hr).
  unfold lx_peek_byte in He. destruct (peek_byte src (lx_cur l)) as [r c] eqn:Epb.
  inversion He as [[Hr0 Hl1]]. subst l1 r. cbn [lx_cur lx_toks] in *. clear He Ht.
  pose proof (placed_pos_le _ _ _ Hp) as Hle.
  destruct (nth_error text (lx_pos l)) as [b|] eqn:Eb.
  - assert (Hlt : lx_pos l < length text) by (apply nth_error_Some; congruence). specialize (Hr Hlt).
    unfold lx_pos in *. cbn [snd lx_cur lx_toks cu_off cu_start cu_text] in *.
    split; [|split; [reflexivity|]; split; [lia | lia]].
    unfold nearby, lx_placed, placed, lx_pos, cu_end in *. cbn [lx_cur cu_off cu_start cu_text].
    destruct (Nat.eq_dec (S (cu_off c)) (cu_start c + length (cu_text c))) as [E|E].
    + left. split; [assumption|]. rewrite E. apply Hd.
    + right. split; [assumption|]. lia.
  - apply nth_error_None in Eb. unfold lx_pos in *. cbn [snd lx_cur lx_toks] in *.
    split; [assumption|]. split; [reflexivity|]. split; intros; lia.
Qed.

Lemma lx_consume_spec : forall src text l p, serves src text -> lx_placed src text l -> valid p ->
  exists b l', lx_consume src l p = Some (b, l') /\ lx_placed src text l' /\ lx_toks l' = lx_toks l /\
    if b then occurs p text (lx_pos l) /\ lx_pos l' = lx_pos l + length p
    else ~ occurs p text (lx_pos l) /\ lx_pos l' = lx_pos l.
Proof.
  intros src text l p Hs Hp Hv.
  destruct (step_refines src text (lx_cur l) (Consume p) Hs Hp Hv) as (o & c' & He & Hst & Hp').
  unfold lx_consume. cbn [cursor_step] in He.
  destruct (consume_if_starts_with src (lx_cur l) p) as [[b c]|]; [|discriminate].
  assert (Ho : o = OBool b) by congruence. assert (c = c') by congruence. subst c o.
  exists b, (Lexer c' (lx_toks l)). split; [reflexivity|]. split; [assumption|]. split; [reflexivity|].
  unfold lx_pos. cbn [lx_cur]. inversion Hst; subst; auto.
Qed.

Lemma lx_starts_spec : forall src text l p, serves src text -> lx_placed src text l ->
  exists b l', lx_starts_with src l p = Some (b, l') /\ lx_placed src text l' /\ lx_toks l' = lx_toks l /\
    lx_pos l' = lx_pos l /\ (b = true <-> occurs p text (lx_pos l)).
Proof.
  intros src text l p Hs Hp.
  destruct (starts_with_spec src text (lx_cur l) p Hs Hp) as (b & c' & He & Hb & Hp' & Ho).
  unfold lx_starts_with. rewrite He. exists b, (Lexer c' (lx_toks l)). repeat split; auto; try apply Hp'; apply Hb.
Qed.

Lemma occurs_cons_first : forall x p text i, occurs (x :: p) text i -> nth_error text i = Some x.
Proof.
  intros x p text i (tl & He & Hi). rewrite <- (Nat.add_0_r i), <- nth_error_skipn, He. reflexivity.
Qed.

Lemma occurs_lt : forall p text i, p <> [] -> occurs p text i -> i < length text.
Proof.
  intros [| x p] text i H Ho; [contradiction|]. apply occurs_cons_first in Ho.
  apply nth_error_Some. congruence.
Qed.

Lemma block_skip : forall e text a a' b, a <= a' ->
  (forall j, a <= j < a' -> ~ occurs e text j) -> block_ends e text a' b -> block_ends e text a b.
Proof.
  intros e text a a' b Hle Hno [(i & (H1 & H2 & H3) & ->) | (H & ->)].
  - left. exists i. split; [|reflexivity]. split; [lia|]. split; [assumption|].
    intros j Hj. destruct (Nat.lt_ge_cases j a'); [apply Hno; lia | apply H3; lia].
  - right. split; [|reflexivity]. intros j Hj. destruct (Nat.lt_ge_cases j a'); [apply Hno; lia | apply H; lia].
Qed.

Lemma block_at_end : forall e text a, e <> [] -> length text <= a -> block_ends e text a (length text).
Proof.
  intros e text a He Ha. right. split; [|reflexivity]. intros j Hj Ho.
  apply occurs_lt in Ho; [lia | assumption].
Qed.

Lemma block_loop_spec : forall src text e, serves src text -> valid e -> e <> [] ->
  forall fuel l, nearby src text l -> lx_pos l <= length text -> length text - lx_pos l < fuel ->
  exists l', block_loop src fuel e l = Some l' /\ (lx_placed src text l \/ lx_pos l < length text -> lx_placed src text l') /\
    lx_toks l' = lx_toks l /\ block_ends e text (lx_pos l) (lx_pos l') /\ lx_pos l <= lx_pos l'.
Proof.
  intros src text e Hs Hve Hne. assert (Hv : valid text) by apply Hs.
  destruct e as [| b0 e']; [contradiction|]. pose proof (valid_head _ _ Hve) as Hb0.
  induction fuel as [| f IH]; intros l Hn Hle Hf; [lia|]. cbn [block_loop].
  destruct (peek_byte_loads src text l Hs Hn) as (l1 & -> & Hn1 & Ho1 & Ht1 & Hd1 & Hr1).
  destruct (nth_error text (lx_pos l)) as [b|] eqn:Eb.
  - assert (Hlt : lx_pos l < length text) by (apply nth_error_Some; congruence).
    destruct (until_nearby src text l1 b0 Hs Hn1 Hb0) as (l2 & n & -> & Hp2 & Ht2 & Ho2 & Hrun).
    pose proof (placed_pos_le _ _ _ Hp2) as Hle2.
    assert (Hnone : forall j, lx_pos l <= j < lx_pos l2 -> ~ occurs (b0 :: e') text j).
    { intros j Hj Ho. apply occurs_cons_first in Ho. destruct Hrun as (_ & Hrun & _).
      apply (Hrun (j - lx_pos l) b0); [lia | | reflexivity].
      rewrite nth_error_skipn. rewrite Ho1. replace (lx_pos l + (j - lx_pos l)) with j by lia. assumption. }
    destruct (lx_consume_spec src text l2 (b0 :: e') Hs Hp2 Hve) as (bb & l3 & -> & Hp3 & Ht3 & Hcons).
    destruct bb.
    + destruct Hcons as (Hocc & Ho3). exists l3. split; [reflexivity|]. split; [auto|]. split; [congruence|].
      split; [|lia]. apply (block_skip _ _ _ (lx_pos l2)); [lia | assumption |].
      left. exists (lx_pos l2). split; [|assumption]. split; [lia|]. split; [assumption|]. intros; lia.
    + destruct Hcons as (Hocc & Ho3).
      destruct (advance_byte_nearby src text l3 Hs Hp3) as (Hn4 & Ht4 & H4a & H4b). cbv zeta in *.
      set (l4 := lx_advance_byte src l3) in *.
      destruct (Nat.lt_ge_cases (lx_pos l3) (length text)) as [Hl3 | Hl3].
      * specialize (H4a Hl3). destruct (IH l4 Hn4) as (l' & -> & Hp' & Ht' & Hb' & Hle'); [lia | lia |].
        exists l'. split; [reflexivity|]. split.
        { intros _. apply Hp'. destruct (Nat.eq_dec (lx_pos l4) (length text)) as [E|E]; [|right; lia].
          left. destruct Hn4 as [H | (Hd & Hr)]; [assumption|].
          exfalso. destruct Hd as ((Hpl & _) & _). unfold cu_end in Hr. lia. }
        split; [congruence|]. split; [|lia].
        apply (block_skip _ _ _ (lx_pos l4)); [lia | | assumption].
        intros j Hj. destruct (Nat.eq_dec j (lx_pos l2)) as [->|]; [assumption | apply Hnone; lia].
      * specialize (H4b Hl3). destruct (IH l4 Hn4) as (l' & -> & Hp' & Ht' & Hb' & Hle'); [lia | lia |].
        exists l'. split; [reflexivity|]. split.
        { intros _. apply Hp'. left. destruct Hn4 as [H | (Hd & Hr)]; [assumption|].
          exfalso. destruct Hd as ((Hpl & _) & _). unfold cu_end in Hr. lia. }
        split; [congruence|]. split; [|lia].
        apply (block_skip _ _ _ (lx_pos l4)); [lia | | assumption].
        intros j Hj. apply Hnone. lia.
  - apply nth_error_None in Eb. exists l1. split; [reflexivity|]. split.
    + intros _. destruct Hn1 as [H | (Hd & Hr)]; [assumption|].
      exfalso. destruct Hd as ((Hpl & _) & _). unfold cu_end in Hr. lia.
    + split; [assumption|]. split; [|lia]. rewrite Ho1. replace (lx_pos l) with (length text) by lia.
      apply block_at_end; [discriminate | lia].
Qed.

Lemma scan_block_comment_spec : forall src text kind s e l,
  serves src text -> lx_placed src text l -> valid s -> valid e -> e <> [] ->
  exists b l', scan_block_comment src kind s e l = Some (b, l') /\ lx_placed src text l' /\
    if b then lx_pos l <= lx_pos l' /\ emits kind l l' /\ occurs s text (lx_pos l) /\
      block_ends e text (lx_pos l + length s) (lx_pos l')
    else declines l l' /\ ~ occurs s text (lx_pos l).
Proof.
  intros src text kind s e l Hs Hp Hvs Hve Hne. unfold scan_block_comment.
  destruct (lx_consume_spec src text l s Hs Hp Hvs) as (b & l1 & -> & Hp1 & Ht1 & Hc). destruct b.
  - destruct Hc as (Hocc & Ho1). pose proof (placed_pos_le _ _ _ Hp1).
    destruct (block_loop_spec src text e Hs Hve Hne (scan_fuel src) l1) as (l2 & -> & Hp2 & Ht2 & Hb & Hle).
    + now left.
    + assumption.
    + unfold scan_fuel. destruct Hs as (_ & -> & _). lia.
    + exists true, (add_token l2 kind (lx_pos l) (lx_pos l2)). split; [reflexivity|].
      split; [apply Hp2; now left|]. unfold emits, add_token, lx_pos in *. cbn in *.
      split; [lia|]. split; [congruence|]. split; [assumption|]. now rewrite <- Ho1.
  - exists false, l1. split; [reflexivity|]. split; [assumption|]. unfold declines. tauto.
Qed.

Lemma scan_line_comment_spec : forall src text kind p l,
  serves src text -> lx_placed src text l -> valid p ->
  exists b l', scan_line_comment src kind p l = Some (b, l') /\ lx_placed src text l' /\
    if b then lx_pos l <= lx_pos l' /\ emits kind l l' /\ occurs p text (lx_pos l) /\
      line_ends text (lx_pos l + length p) (lx_pos l')
    else declines l l' /\ ~ occurs p text (lx_pos l).
Proof.
  intros src text kind p l Hs Hp Hv. unfold scan_line_comment.
  destruct (lx_consume_spec src text l p Hs Hp Hv) as (b & l1 & -> & Hp1 & Ht1 & Hc). destruct b.
  - destruct Hc as (Hocc & Ho1).
    destruct (until_nearby src text l1 10%Z Hs (or_introl Hp1) eq_refl) as (l2 & n & -> & Hp2 & Ht2 & Ho2 & Hrun).
    exists true, (add_token l2 kind (lx_pos l) (lx_pos l2)). split; [reflexivity|]. split; [assumption|].
    unfold emits, add_token, line_ends, lx_pos in *. cbn in *. split; [lia|]. split; [congruence|].
    split; [assumption|]. exists n. split; [lia|]. now rewrite <- Ho1.
  - exists false, l1. split; [reflexivity|]. split; [assumption|]. unfold declines. tauto.
Qed.

Lemma marker_here_spec : forall src text p l, serves src text -> lx_placed src text l ->
  exists b l', marker_here src p l = Some (b, l') /\ lx_placed src text l' /\ lx_toks l' = lx_toks l /\
    lx_pos l' = lx_pos l /\ (b = true <-> p <> [] /\ occurs p text (lx_pos l)).
Proof.
  intros src text p l Hs Hp. unfold marker_here. destruct p as [| x p]; cbn [nonempty].
  - exists false, l. split; [reflexivity|]. split; [assumption|]. split; [reflexivity|]. split; [reflexivity|].
    split; [discriminate | intros [H _]; contradiction].
  - destruct (lx_starts_spec src text l (x :: p) Hs Hp) as (b & l' & -> & H1 & H2 & H3 & H4).
    exists b, l'. split; [reflexivity|]. split; [assumption|]. split; [assumption|]. split; [assumption|].
    rewrite H4. split; [intros H; split; [discriminate | assumption] | tauto].
Qed.

Lemma occurs_boundary_end : forall src text l p, serves src text -> lx_placed src text l -> valid p ->
  occurs p text (lx_pos l) -> is_boundary text (lx_pos l + length p) = true.
Proof.
  intros src text l p Hs Hp Hv Ho. destruct (occurs_reads p text _ Hv Ho) as (cs & _ & Hr).
  apply (reads_boundary text (lx_pos l) _ cs); [apply Hs | apply Hp | assumption].
Qed.

Lemma depth_loop_spec : forall src text cfg, serves src text ->
  valid (cc_start cfg) -> valid (cc_end cfg) ->
  forall fuel d l, lx_placed src text l -> length text - lx_pos l < fuel ->
  exists l' its, depth_loop src cfg fuel d l = Some l' /\ lx_placed src text l' /\ lx_toks l' = lx_toks l /\
    items_at cfg text (lx_pos l) its (lx_pos l') /\ lx_pos l <= lx_pos l' /\
    (forall p r, its = p ++ r -> r <> [] -> (0 < Z.of_nat d - 1 + level p)%Z) /\
    ((Z.of_nat d - 1 + level its = 0)%Z \/
     ((0 < Z.of_nat d - 1 + level its)%Z /\ lx_pos l' = length text)).
Proof.
  intros src text cfg Hs Hv1 Hv2. induction fuel as [| f IH]; intros d l Hp Hf; [lia|].
  cbn [depth_loop]. pose proof (placed_pos_le _ _ _ Hp) as Hle.
  assert (Hlen : src_len src = length text) by apply Hs.
  destruct ((0 <? d) && not_at_end src l) eqn:Eg.
  2:{ exists l, []. split; [reflexivity|]. split; [assumption|]. split; [reflexivity|].
      split; [constructor|]. split; [lia|]. split.
      - intros p r He Hr. symmetry in He. apply app_eq_nil in He. now destruct He.
      - cbn [level]. unfold not_at_end in Eg. rewrite Hlen in Eg. lia. }
  assert (Hd : 0 < d) by lia. assert (Hlt : lx_pos l < length text) by (unfold not_at_end in Eg; lia).
  assert (Hopen : exists b l1, (if cc_nested cfg then marker_here src (cc_start cfg) l else Some (false, l)) = Some (b, l1)
            /\ lx_placed src text l1 /\ lx_toks l1 = lx_toks l /\ lx_pos l1 = lx_pos l
            /\ (b = true <-> opens_at cfg text (lx_pos l))).
  { unfold opens_at. destruct (cc_nested cfg).
    - destruct (marker_here_spec src text (cc_start cfg) l Hs Hp) as (b & l1 & H1 & H2 & H3 & H4 & H5).
      exists b, l1. rewrite H5. tauto.
    - exists false, l. split; [reflexivity|]. split; [assumption|]. split; [reflexivity|]. split; [reflexivity|].
      split; [discriminate | intros [H _]; discriminate]. }
  destruct Hopen as (b & l1 & -> & Hp1 & Ht1 & Ho1 & Hb).
  assert (Hcons : forall it m l2 d', lx_placed src text l2 -> lx_pos l2 = m -> lx_toks l2 = lx_toks l ->
            lx_pos l < m -> item_at cfg text (lx_pos l) it m ->
            (forall z, level (it :: z) = level z + (Z.of_nat d' - Z.of_nat d))%Z ->
            exists l' its, depth_loop src cfg f d' l2 = Some l' /\ lx_placed src text l' /\ lx_toks l' = lx_toks l /\
              items_at cfg text (lx_pos l) its (lx_pos l') /\ lx_pos l <= lx_pos l' /\
              (forall p r, its = p ++ r -> r <> [] -> (0 < Z.of_nat d - 1 + level p)%Z) /\
              ((Z.of_nat d - 1 + level its = 0)%Z \/
               ((0 < Z.of_nat d - 1 + level its)%Z /\ lx_pos l' = length text))).
  { intros it m l2 d' Hp2 Ho2 Ht2 Hm Hit Hlev.
    destruct (IH d' l2 Hp2) as (l' & its & H1 & H2 & H3 & H4 & H5 & H6 & H7); [lia|].
    exists l', (it :: its). split; [assumption|]. split; [assumption|]. split; [congruence|].
    split; [rewrite Ho2 in H4; now apply (ICons cfg text _ it m)|]. split; [lia|]. split.
    - intros [| it' p] r He Hr; [cbn [level]; lia|]. cbn [app] in He. injection He as <- He.
      rewrite Hlev. specialize (H6 p r He Hr). lia.
    - rewrite Hlev. lia. }
  destruct b.
  - assert (Hop : opens_at cfg text (lx_pos l)) by now apply Hb. pose proof Hop as (_ & Hne & Hocc).
    rewrite <- Ho1 in Hocc. pose proof (occurs_boundary_end src text l1 _ Hs Hp1 Hv1 Hocc) as Hbd.
    destruct (lx_advance_spec src text l1 _ Hs Hp1 Hbd) as (Hp2 & Ho2 & Ht2).
    assert (0 < length (cc_start cfg)) by (destruct (cc_start cfg); [contradiction | cbn; lia]).
    apply (Hcons Open (lx_pos l + length (cc_start cfg)) _ _ Hp2); [lia | congruence | lia | now split | intros; cbn [level]; lia].
  - assert (Hnop : ~ opens_at cfg text (lx_pos l)) by (rewrite <- Hb; discriminate).
    destruct (marker_here_spec src text (cc_end cfg) l1 Hs Hp1) as (b & l2 & -> & Hp2 & Ht2 & Ho2 & Hb2).
    rewrite Ho1 in Hb2. destruct b.
    + assert (Hcl : closes_at cfg text (lx_pos l)) by now apply Hb2. pose proof Hcl as (Hne & Hocc).
      replace (lx_pos l) with (lx_pos l2) in Hocc by congruence.
      pose proof (occurs_boundary_end src text l2 _ Hs Hp2 Hv2 Hocc) as Hbd.
      destruct (lx_advance_spec src text l2 _ Hs Hp2 Hbd) as (Hp3 & Ho3 & Ht3).
      assert (0 < length (cc_end cfg)) by (destruct (cc_end cfg); [contradiction | cbn; lia]).
      apply (Hcons Close (lx_pos l + length (cc_end cfg)) _ _ Hp3); [lia | congruence | lia | now split | intros; cbn [level]; lia].
    + assert (Hncl : ~ closes_at cfg text (lx_pos l)) by (unfold closes_at; rewrite <- Hb2; discriminate).
      destruct (lx_current_spec src text l2 Hs Hp2) as (r & l3 & -> & Hc & Hp3 & Ho3 & Ht3).
      destruct r as [ch|]; [|cbn [char_at] in Hc; lia]. destruct Hc as [m Hm].
      assert (Hm3 : reads text (lx_pos l3) m [ch]) by congruence.
      destruct (lx_step_char src text l3 m ch Hs Hp3 Hm3) as (Hp4 & Ho4 & Ht4 & Hlt4). cbv zeta in *.
      apply (Hcons (Other ch) m _ _ Hp4); [lia | congruence | lia | | intros; cbn [level]; lia].
      split; [assumption|]. split; [assumption|]. congruence.
Qed.

Lemma valid_pattern_boundary : forall p text j, valid text -> valid p -> p <> [] ->
  occurs p text j -> is_boundary text j = true.
Proof.
  intros [| x p] text j Hv Hvp Hne Ho; [contradiction|]. apply valid_head in Hvp.
  apply occurs_cons_first in Ho. unfold is_boundary. destruct j; [reflexivity|]. now rewrite Ho, Hvp.
Qed.

Lemma no_boundary_inside : forall text a b ch j, valid text -> is_boundary text a = true ->
  reads text a b [ch] -> a < j < b -> is_boundary text j = false.
Proof.
  intros text a b ch j Hv Ha Hr Hj. destruct (is_boundary text j) eqn:E; [exfalso | reflexivity].
  destruct (reads_of_boundaries text a j Hv) as (cs & Hcs); [lia | assumption | assumption |].
  destruct cs as [| c cs].
  - apply reads_end in Hcs. cbn in Hcs. lia.
  - apply reads_cons in Hcs. destruct Hcs as (m & Hm & Hrest).
    destruct (reads_unique _ _ _ _ _ _ Hr Hm) as (_ & <-). destruct Hrest as (_ & Hrest & _). lia.
Qed.

Lemma unnested_block : forall cfg text, valid text -> valid (cc_end cfg) -> cc_end cfg <> [] ->
  cc_nested cfg = false -> forall a b, is_boundary text a = true ->
  nested_ends cfg text a b -> block_ends (cc_end cfg) text a b.
Proof.
  intros cfg text Hv Hve Hne Hnest a b Ha (its & Hits & Hpre & Hend). revert Ha Hpre Hend.
  induction Hits as [a | a it m its b Hit Hits IH]; intros Ha Hpre Hend.
  - cbn [level] in Hend. assert (a = length text) by lia. subst a. now apply block_at_end.
  - destruct it as [| | c]; cbn [item_at] in Hit.
    + destruct Hit as ((Hn & _) & _). congruence.
    + destruct Hit as (_ & (_ & Hocc) & ->). destruct its as [| it' its].
      * inv Hits. left. exists a. split; [|reflexivity]. split; [lia|]. split; [assumption | intros; lia].
      * exfalso. specialize (Hpre [Close] (it' :: its) eq_refl ltac:(discriminate)). cbn [level] in Hpre. lia.
    + destruct Hit as (_ & Hncl & Hr). destruct (read_boundary text a m c Hv Ha Hr) as (_ & Hbm & Hlt).
      apply (block_skip _ _ a m); [lia | | apply IH].
      * intros j Hj Ho. destruct (Nat.eq_dec j a) as [->|].
        -- apply Hncl. now split.
        -- pose proof (valid_pattern_boundary _ _ _ Hv Hve Hne Ho) as Hbj.
           rewrite (no_boundary_inside text a m c j Hv Ha Hr) in Hbj; [discriminate | lia].
      * assumption.
      * intros p r -> Hr'. specialize (Hpre (Other c :: p) r eq_refl Hr'). cbn [level] in Hpre. assumption.
      * cbn [level] in Hend. assumption.
Qed.

Lemma scan_comment_spec : forall src text cfg lk bk l,
  serves src text -> lx_placed src text l ->
  valid (cc_line cfg) -> valid (cc_start cfg) -> valid (cc_end cfg) ->
  exists b l', scan_comment src cfg lk bk l = Some (b, l') /\ lx_placed src text l' /\
    let line := cc_line cfg <> [] /\ occurs (cc_line cfg) text (lx_pos l) in
    let block := cc_start cfg <> [] /\ occurs (cc_start cfg) text (lx_pos l) in
    if b then lx_pos l <= lx_pos l' /\
      ((line /\ emits lk l l' /\ line_ends text (lx_pos l + length (cc_line cfg)) (lx_pos l')) \/
       (~ line /\ block /\ emits bk l l' /\
        nested_ends cfg text (lx_pos l + length (cc_start cfg)) (lx_pos l')))
    else declines l l' /\ ~ line /\ ~ block.
Proof.
  intros src text cfg lk bk l Hs Hp Hv1 Hv2 Hv3. unfold scan_comment.
  destruct (marker_here_spec src text (cc_line cfg) l Hs Hp) as (b & l1 & -> & Hp1 & Ht1 & Ho1 & Hb). destruct b.
  - assert (Hl : cc_line cfg <> [] /\ occurs (cc_line cfg) text (lx_pos l)) by now apply Hb.
    assert (Hbd : is_boundary text (lx_pos l1 + length (cc_line cfg)) = true).
    { apply (occurs_boundary_end src); auto. rewrite Ho1. apply Hl. }
    destruct (lx_advance_spec src text l1 _ Hs Hp1 Hbd) as (Hp2 & Ho2 & Ht2). cbv zeta.
    set (l2 := lx_advance src l1 (length (cc_line cfg))) in *.
    destruct (until_placed src text (lx_cur l2) 10%Z (fun t => Some (scan_bytes (fun b => negb (b =? 10)%Z) t 0 0)) Hs Hp2 eq_refl)
      with (fuel := scan_fuel src) as (c' & n & Heq & Hp3 & Ho3 & Hrun).
    { intros t. now rewrite scan_bytes_span. }
    { unfold scan_fuel. destruct Hs as (_ & -> & _). lia. }
    unfold take_while_byte. rewrite Heq. cbn [lx_scan].
    eexists true, _. split; [reflexivity|]. split; [exact Hp3|].
    unfold emits, add_token, line_ends, lx_pos in *. cbn [lx_cur lx_toks] in *. split; [lia|]. left.
    split; [assumption|]. split; [congruence|]. exists n. split; [lia|]. rewrite <- Ho1, <- Ho2. assumption.
  - assert (Hnl : ~ (cc_line cfg <> [] /\ occurs (cc_line cfg) text (lx_pos l))) by (rewrite <- Hb; discriminate).
    destruct (marker_here_spec src text (cc_start cfg) l1 Hs Hp1) as (b & l2 & -> & Hp2 & Ht2 & Ho2 & Hb2).
    rewrite Ho1 in Hb2. destruct b.
    + assert (Hl : cc_start cfg <> [] /\ occurs (cc_start cfg) text (lx_pos l)) by now apply Hb2.
      assert (Hbd : is_boundary text (lx_pos l2 + length (cc_start cfg)) = true).
      { apply (occurs_boundary_end src); auto. rewrite Ho2, Ho1. apply Hl. }
      destruct (lx_advance_spec src text l2 _ Hs Hp2 Hbd) as (Hp3 & Ho3 & Ht3).
      destruct (depth_loop_spec src text cfg Hs Hv2 Hv3 (scan_fuel src) 1 _ Hp3)
        as (l' & its & -> & Hp' & Ht' & Hits & Hle & Hpre & Hend).
      { unfold scan_fuel. destruct Hs as (_ & -> & _). lia. }
      eexists true, _. split; [reflexivity|]. split; [exact Hp'|]. cbv zeta.
      unfold emits, add_token. cbn [lx_toks]. change (lx_pos (Lexer (lx_cur l') ?x)) with (lx_pos l').
      split; [lia|]. right. split; [assumption|]. split; [assumption|]. split; [congruence|].
      exists its. split; [|split].
      * replace (lx_pos l) with (lx_pos l2) by congruence. rewrite <- Ho3. exact Hits.
      * intros p r He Hr. specialize (Hpre p r He Hr). lia.
      * change (lx_pos {| lx_cur := lx_cur l'; lx_toks := lx_toks l' ++ _ |}) with (lx_pos l'). lia.
    + exists false, l2. split; [reflexivity|]. split; [assumption|].
      split; [split; congruence|]. split; [assumption|]. rewrite <- Hb2. discriminate.
Qed.
