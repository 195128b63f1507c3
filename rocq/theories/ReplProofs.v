(** Proofs about the line editor. *)
From Verif Require Import Base Utf8 Utf8Facts CursorProofs HiModel ReplModel ReplSpec.

Definition scalar_editor (e : editor) : Prop :=
  Forall (Forall is_scalar) (ed_done e) /\ Forall is_scalar (ed_before e) /\ Forall is_scalar (ed_after e).

Lemma ascii_scalar cs : ascii_only cs -> Forall is_scalar cs.
Proof. apply Forall_impl. intros c H. left. lia. Qed.

Lemma ascii_length cs : ascii_only cs -> length (encode cs) = length cs.
Proof. intros H. now rewrite encode_ascii. Qed.

Lemma join_text ls x : Forall is_scalar x -> Forall (Forall is_scalar) ls ->
  join [10%Z] (map encode (ls ++ [x])) = encode (flat_map (fun l => l ++ [10%Z]) ls ++ x).
Proof.
  intros Hx. induction 1 as [| l ls Hl Hls IH]; [reflexivity|].
  cbn [app map flat_map]. rewrite <- !app_assoc, !encode_app, <- encode_app, <- IH.
  destruct ls as [| l2 ls]; reflexivity.
Qed.

Lemma full_text_holds b e : scalar_editor e -> holds b e -> full_text b = encode (ed_text e).
Proof.
  intros (Hd & Hb & Ha) (Hl & _). unfold full_text, ed_text. rewrite Hl. apply join_text; [|assumption]. apply Forall_app. now split.
Qed.

Lemma text_scalar e : scalar_editor e -> Forall is_scalar (ed_text e).
Proof.
  intros (Hd & Hb & Ha). unfold ed_text. rewrite !Forall_app. split; [|now split]. apply Forall_flat_map.
  eapply Forall_impl; [|exact Hd]. intros l Hl. apply Forall_app. split; [assumption|]. constructor; [left; lia | constructor].
Qed.

Lemma nth_last {A} (l : list A) x : nth_error (l ++ [x]) (length l) = Some x.
Proof. rewrite nth_error_app2 by lia. now rewrite Nat.sub_diag. Qed.

Lemma set_last (l : list str) x y : set_line (l ++ [x]) (length l) y = l ++ [y].
Proof.
  unfold set_line. rewrite firstn_app, firstn_all, Nat.sub_diag. cbn [firstn]. rewrite app_nil_r.
  rewrite skipn_all2; [reflexivity|]. rewrite app_length. cbn. lia.
Qed.

Lemma map_last d x : map encode (d ++ [x]) = map encode d ++ [encode x].
Proof. apply map_app. Qed.

Lemma insert_holds b e c : scalar_editor e -> is_scalar c -> ascii_only (ed_before e) -> holds b e ->
  exists b', insert b c = Some b' /\ holds b' (type_char e c).
Proof.
  intros (Hd & Hb & Ha) Hc Has (Hl & Hcur & Hpos). unfold insert. rewrite Hl, Hcur, Hpos, map_last.
  rewrite <- (map_length encode (ed_done e)), nth_last. unfold string_insert.
  rewrite encode_app, is_boundary_app'; [| now apply valid_encode | now rewrite ascii_length].
  rewrite <- (ascii_length (ed_before e) Has), firstn_app, firstn_all, Nat.sub_diag. cbn [firstn]. rewrite app_nil_r.
  rewrite skipn_app, skipn_all, Nat.sub_diag. cbn [skipn app]. rewrite set_last. eexists. split; [reflexivity|].
  unfold holds, type_char. cbn [bf_lines bf_current bf_cursor ed_done ed_before ed_after]. rewrite map_last.
  split; [|split].
  - do 2 f_equal. rewrite !encode_app. cbn [encode]. rewrite app_nil_r, <- app_assoc. reflexivity.
  - now rewrite map_length.
  - rewrite app_length. cbn. now rewrite ascii_length.
Qed.

Lemma type_scalar e c : scalar_editor e -> is_scalar c -> scalar_editor (type_char e c).
Proof.
  intros (Hd & Hb & Ha) Hc. split; [assumption|]. split; [|assumption]. cbn. apply Forall_app. split; [assumption | constructor; [assumption | constructor]].
Qed.

Lemma spaces_hold n : forall b e, scalar_editor e -> ascii_only (ed_before e) -> holds b e ->
  exists b', insert_spaces n b = Some b' /\ holds b' (Editor (ed_done e) (ed_before e ++ repeat 32%Z n) (ed_after e)).
Proof.
  induction n as [| n IH]; intros b e He Has Hh; cbn [insert_spaces repeat].
  - exists b. split; [reflexivity|]. rewrite app_nil_r. now destruct e.
  - assert (S32 : is_scalar 32) by (left; lia).
    destruct (insert_holds b e 32 He S32 Has Hh) as (b' & -> & Hb').
    destruct (IH b' (type_char e 32)) as (b2 & E2 & H2); [now apply type_scalar | | assumption |].
    + cbn. apply Forall_app. split; [assumption|]. constructor; [lia | constructor].
    + exists b2. split; [assumption|]. unfold type_char in H2. cbn [ed_done ed_before ed_after] in H2. rewrite <- app_assoc in H2. exact H2.
Qed.

Lemma back_holds b e e' : scalar_editor e -> ascii_only (removelast (ed_before e)) -> holds b e -> rubs_out e e' ->
  exists b', backspace b = Some b' /\ holds b' e'.
Proof.
  intros (Hd & Hb & Ha) Has (Hl & Hcur & Hpos) R. unfold backspace. rewrite Hcur, Hpos.
  destruct R as [d l c a | d l a | a]; cbn [ed_done ed_before ed_after] in *.
  - rewrite removelast_last in Has. rewrite app_length. cbn [length]. destruct (Nat.ltb_spec 0 (length l + 1)); [|lia].
    rewrite Hl, map_last, <- (map_length encode d), nth_last. unfold string_remove. replace (length l + 1 - 1) with (length l) by lia.
    apply Forall_app in Hb. destruct Hb as [Hbl Hbc]. apply Forall_cons_iff in Hbc. destruct Hbc as [Hc _].
    rewrite <- app_assoc, encode_app. rewrite is_boundary_app'; [| apply valid_encode; constructor; assumption | now rewrite ascii_length].
    rewrite <- (ascii_length l Has), firstn_app, firstn_all, Nat.sub_diag. cbn [firstn]. rewrite app_nil_r.
    rewrite skipn_app, skipn_all, Nat.sub_diag. cbn [skipn app encode]. rewrite decode1_encode_char by assumption. rewrite set_last.
    eexists. split; [reflexivity|]. unfold holds. cbn [bf_lines bf_current bf_cursor ed_done ed_before ed_after].
    rewrite map_last, encode_app, map_length, ascii_length by assumption. auto.
  - cbn [length]. change (0 <? 0) with false. cbv iota. rewrite app_length. cbn [length]. destruct (Nat.ltb_spec 0 (length d + 1)); [|lia].
    rewrite Hl, map_last. cbn [app]. replace (length d + 1) with (length (map encode (d ++ [l]))) by (rewrite map_length, app_length; reflexivity).
    rewrite nth_last. rewrite firstn_app, firstn_all, Nat.sub_diag. cbn [firstn]. rewrite skipn_all2 by (rewrite app_length; cbn; lia).
    rewrite !app_nil_r. rewrite map_length, app_length. cbn [length]. replace (length d + 1 - 1) with (length d) by lia.
    rewrite map_last, <- (map_length encode d), nth_last, set_last. eexists. split; [reflexivity|].
    apply Forall_app in Hd. destruct Hd as [Hd Hll]. apply Forall_cons_iff in Hll. destruct Hll as [Hll _].
    unfold holds. cbn [bf_lines bf_current bf_cursor ed_done ed_before ed_after].
    rewrite map_last, encode_app, map_length, chars_encode by assumption. auto.
  - change (0 <? 0) with false. cbv iota. exists b. split; [reflexivity|]. repeat split; assumption.
Qed.

Lemma empty_iff b e : scalar_editor e -> holds b e -> is_empty b = true <-> e = blank.
Proof.
  intros He (Hl & _). unfold is_empty. rewrite Hl. destruct e as [d bf af]; cbn [ed_done ed_before ed_after] in *. split.
  - intros H. apply andb_true_iff in H. destruct H as [H1 H2]. apply Nat.eqb_eq in H1. rewrite map_length, app_length in H1. cbn in H1.
    destruct d as [| x d]; [|cbn in H1; lia]. cbn [app map] in H2. destruct (bf ++ af) as [| c r] eqn:E.
    + apply app_eq_nil in E. destruct E as [-> ->]. reflexivity.
    + cbn [encode] in H2. assert (P := encode_char_length c). assert (Q := char_len_pos c). destruct (encode_char c); [cbn in P; lia | discriminate H2].
  - intros E. injection E as -> -> ->. reflexivity.
Qed.

Lemma blank_holds : holds empty_buffer blank.
Proof. repeat split. Qed.

Lemma blank_scalar : scalar_editor blank.
Proof. repeat split; constructor. Qed.

Lemma press_reacts {S} (h : handler S) s b cont e k s' e' out on : scalar_editor e -> holds b e -> ascii_left e k ->
  reacts h s e k s' e' out on ->
  scalar_editor e' /\ exists b' cont', press h (Repl s b cont) k = Some (Turn (Repl s' b' cont') (map encode out) on) /\ holds b' e'.
Proof.
  intros He Hh Hok R. unfold press. cbn [rp_state rp_buffer rp_cont].
  destruct R as [s e c | s e c N1 N2 | s e | s | s e N | s e s' C H | s e s' C H | s e C | s e e' R | s e e' R | s e e' R | s e].
  - destruct Hok as [Hc Has]. destruct (insert_holds b e c He Hc Has Hh) as (b' & -> & Hb'). split; [now apply type_scalar | eauto].
  - destruct Hok as [Hc Has]. destruct Has as [-> | [-> | Has]]; [congruence | congruence |].
    destruct (Z.eqb_spec c 99); [congruence|]. destruct (Z.eqb_spec c 100); [congruence|].
    destruct (insert_holds b e c He Hc Has Hh) as (b' & -> & Hb'). split; [now apply type_scalar | eauto].
  - cbn. split; [apply blank_scalar|]. do 2 eexists. split; [reflexivity | apply blank_holds].
  - cbn [Z.eqb]. change (100 =? 99)%Z with false. change (100 =? 100)%Z with true. cbv iota. split; [assumption|].
    assert (E : is_empty b = true) by now apply (empty_iff b blank). rewrite E. do 2 eexists. split; [reflexivity | assumption].
  - change (100 =? 99)%Z with false. change (100 =? 100)%Z with true. cbv iota. split; [assumption|].
    assert (E : is_empty b = false) by (destruct (is_empty b) eqn:E; [|reflexivity]; apply (empty_iff b e) in E; congruence).
    rewrite E. do 2 eexists. split; [reflexivity | assumption].
  - rewrite (full_text_holds b e He Hh), C, H. split; [apply blank_scalar|]. do 2 eexists. split; [reflexivity | apply blank_holds].
  - rewrite (full_text_holds b e He Hh), C, H. split; [assumption|]. do 2 eexists. split; [reflexivity | assumption].
  - rewrite (full_text_holds b e He Hh), C. destruct He as (Hd & Hb & Ha).
    assert (Hn : scalar_editor (Editor (ed_done e ++ [ed_before e ++ ed_after e]) [] [])).
    { split; [|split; constructor]. cbn. apply Forall_app. split; [assumption|]. constructor; [|constructor]. apply Forall_app. now split. }
    destruct (spaces_hold (hd_indent h s (encode (ed_text e))) (Buffer (bf_lines b ++ [[]]) (bf_current b + 1) 0) _ Hn) as (b' & -> & Hb').
    + constructor.
    + destruct Hh as (Hl & Hcur & _). unfold holds. cbn [bf_lines bf_current bf_cursor ed_done ed_before ed_after]. rewrite Hl, Hcur, (map_last (_ ++ _)), app_length. auto.
    + cbn [app ed_done ed_before ed_after] in Hb'. split; [|eauto]. destruct Hn as (Hn & _). split; [exact Hn|]. split; [|constructor].
      cbn [ed_before]. apply Forall_forall. intros c Hc. apply repeat_spec in Hc. subst c. left. lia.
  - destruct (back_holds b e e' He Hok Hh R) as (b' & -> & Hb'). split; [|eauto].
    destruct He as (Hd & Hb & Ha). destruct R; cbn [ed_done ed_before ed_after] in *.
    + apply Forall_app in Hb. repeat split; try assumption. apply Hb.
    + apply Forall_app in Hd. destruct Hd as [Hd Hl]. apply Forall_cons_iff in Hl. repeat split; try assumption. apply Hl.
    + repeat split; assumption.
  - destruct He as (Hd & Hb & Ha). destruct Hh as (Hl & Hcur & Hpos). split.
    + destruct R; cbn [ed_done ed_before ed_after] in *; [|repeat split; assumption]. apply Forall_app in Hb. destruct Hb as [Hb Hc].
      repeat split; try assumption. apply Forall_cons_iff in Hc. constructor; [apply Hc | assumption].
    + do 2 eexists. split; [reflexivity|]. rewrite Hpos. destruct R; cbn [ed_done ed_before ed_after] in *.
      * rewrite app_length. cbn [length]. destruct (Nat.ltb_spec 0 (length b0 + 1)); [|lia]. unfold holds. cbn [bf_lines bf_current bf_cursor ed_done ed_before ed_after].
        rewrite Hl, <- app_assoc. cbn [app]. repeat split; [assumption | lia].
      * change (0 <? 0) with false. cbv iota. repeat split; assumption.
  - destruct He as (Hd & Hb & Ha). destruct Hh as (Hl & Hcur & Hpos). rewrite Hl, Hcur, map_last, <- (map_length encode (ed_done e)), nth_last.
    rewrite chars_encode by (apply Forall_app; now split). split.
    + destruct R; cbn [ed_done ed_before ed_after] in *; [|repeat split; assumption]. apply Forall_cons_iff in Ha. destruct Ha as [Hc Ha].
      repeat split; try assumption. apply Forall_app. split; [assumption | constructor; [assumption | constructor]].
    + do 2 eexists. split; [reflexivity|]. rewrite Hpos, app_length. destruct R; cbn [ed_done ed_before ed_after] in *.
      * cbn [length]. destruct (Nat.ltb_spec (length b0) (length b0 + Datatypes.S (length a))); [|lia]. unfold holds. cbn [bf_lines bf_current bf_cursor ed_done ed_before ed_after].
        rewrite map_last, app_length, map_length, <- app_assoc. cbn [app length]. auto.
      * rewrite Nat.add_0_r, Nat.ltb_irrefl. unfold holds. rewrite Hl, Hcur, Hpos. auto.
  - split; [assumption|]. do 2 eexists. split; [reflexivity | assumption].
Qed.

Lemma run_session {S} (h : handler S) s e ks s' e' out on : session h ascii_left s e ks s' e' out on ->
  forall b cont, scalar_editor e -> holds b e ->
  scalar_editor e' /\ exists b' cont', run h (Repl s b cont) ks = Some (Turn (Repl s' b' cont') (map encode out) on) /\ holds b' e'.
Proof.
  induction 1 as [s e | s e k ks s' e' out Hok R | s e k ks s1 e1 out1 s' e' out on Hok R Hs IH]; intros b cont He Hh.
  - split; [assumption|]. exists b, cont. split; [reflexivity | assumption].
  - destruct (press_reacts h s b cont e k s' e' out false He Hh Hok R) as (He' & b' & cont' & E & Hb'). split; [assumption|].
    exists b', cont'. cbn [run]. rewrite E. split; [reflexivity | assumption].
  - destruct (press_reacts h s b cont e k s1 e1 out1 true He Hh Hok R) as (He' & b' & cont' & E & Hb').
    destruct (IH b' cont' He' Hb') as (He2 & b2 & cont2 & E2 & H2). split; [assumption|]. exists b2, cont2. cbn [run]. rewrite E.
    cbn [tn_on tn_repl tn_code]. rewrite E2. cbn [tn_on tn_repl tn_code]. rewrite map_app. split; [reflexivity | assumption].
Qed.

Lemma exists_last_or_nil {A} (l : list A) : l = [] \/ exists l' x, l = l' ++ [x].
Proof. destruct l as [| y l]; [now left|]. right. destruct (@exists_last A (y :: l)) as (l' & x & E); [discriminate|]. now exists l', x. Qed.

(** ** Every key does something in the reference editor *)
Lemma react_total {S} (h : handler S) s e k : exists s' e' out on, reacts h s e k s' e' out on.
Proof.
  destruct k as [c | c | | | | |].
  - do 4 eexists. constructor.
  - destruct (Z.eq_dec c 99) as [-> |]; [do 4 eexists; apply ReInterrupt|]. destruct (Z.eq_dec c 100) as [-> |].
    + assert (D : e = blank \/ e <> blank).
      { destruct e as [[| d ds] [| x b] [| y a]]; try (left; reflexivity); right; discriminate. }
      destruct D as [-> | N]; do 4 eexists; [apply ReEof | now apply ReNoEof].
    + do 4 eexists. now apply ReCtrl.
  - destruct (hd_complete h s (encode (ed_text e))) eqn:C; [|do 4 eexists; now apply ReContinue].
    destruct (hd_handle h s (encode (ed_text e))) as [s' [|]] eqn:H; do 4 eexists; [eapply ReLeave | eapply ReSubmit]; eassumption.
  - destruct e as [d b a]. destruct (exists_last_or_nil b) as [-> | (b' & c & ->)].
    + destruct (exists_last_or_nil d) as [-> | (d' & l & ->)]; do 4 eexists; apply ReBack; constructor.
    + do 4 eexists. apply ReBack. constructor.
  - destruct e as [d b a]. destruct (exists_last_or_nil b) as [-> | (b' & c & ->)]; do 4 eexists; apply ReLeft; constructor.
  - destruct e as [d b [| c a]]; do 4 eexists; apply ReRight; constructor.
  - do 4 eexists. constructor.
Qed.
