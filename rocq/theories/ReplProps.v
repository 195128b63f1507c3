(** Theorems about the line editor. *)
From Verif Require Import Base Utf8 Utf8Facts HiModel ReplModel ReplSpec ReplProofs.

Definition ascii_editor (e : editor) : Prop := Forall ascii_only (ed_done e) /\ ascii_only (ed_before e) /\ ascii_only (ed_after e).

Lemma ascii_reacts {S} (h : handler S) s e k s' e' out on : ascii_editor e -> ascii_key k -> reacts h s e k s' e' out on ->
  ascii_left e k /\ ascii_editor e'.
Proof.
  intros (Hd & Hb & Ha) Hk R.
  assert (T : forall c, (0 <= c < 128)%Z -> ascii_editor (type_char e c)).
  { intros c Hc. repeat split; try assumption. apply Forall_app. split; [assumption | constructor; [assumption | constructor]]. }
  assert (B : ascii_editor blank) by (repeat split; constructor).
  destruct R as [s e c | s e c N1 N2 | s e | s | s e N | s e s' C H | s e s' C H | s e C | s e e' R | s e e' R | s e e' R | s e];
    cbn [ascii_left ascii_key] in *.
  - split; [split; [left; lia | assumption] | now apply T].
  - split; [split; [left; lia | now right; right] | now apply T].
  - split; [split; [left; lia | now left] | assumption].
  - split; [split; [left; lia | now right; left] | assumption].
  - split; [split; [left; lia | now right; left] | now split].
  - now split.
  - split; [exact I | now split].
  - split; [exact I|]. split; [|split; [|constructor]]; cbn.
    + apply Forall_app. split; [assumption|]. constructor; [|constructor]. apply Forall_app. now split.
    + apply Forall_forall. intros c Hc. apply repeat_spec in Hc. lia.
  - split.
    + destruct (exists_last_or_nil (ed_before e)) as [-> | (b & c & E)]; [constructor|]. rewrite E in *. rewrite removelast_last. now apply Forall_app in Hb.
    + destruct R; cbn in *; [| | now repeat split].
      * apply Forall_app in Hb. now repeat split.
      * apply Forall_app in Hd. destruct Hd as [Hd Hl]. apply Forall_cons_iff in Hl. now repeat split.
  - split; [exact I|]. destruct R; cbn in *; [|now repeat split].
    apply Forall_app in Hb. destruct Hb as [Hb Hc]. apply Forall_cons_iff in Hc. repeat split; try assumption. constructor; [apply Hc | assumption].
  - split; [exact I|]. destruct R; cbn in *; [|now repeat split].
    apply Forall_cons_iff in Ha. destruct Ha as [Hc Ha]. repeat split; try assumption. apply Forall_app. split; [assumption | constructor; [assumption | constructor]].
  - split; [exact I | now split].
Qed.

(** C58, for sessions in which typing and deleting happen to the right of ASCII characters: the loop does what the editor on
    characters does, hands over the text of the editor, and draws its line and cursor. *)
Theorem repl_edits_partial : forall {S} (h : handler S) s keys s' e out on,
  session h ascii_left s blank keys s' e out on ->
  exists b cont, run h (start s) keys = Some (Turn (Repl s' b cont) (map encode out) on) /\ holds b e /\
    screen h (Repl s' b cont) = Some (hd_prompt h s' cont, ed_before e ++ ed_after e, (Z.of_nat (length (hd_prompt h s' cont) + length (ed_before e)) mod 2 ^ 16)%Z).
Proof.
  intros S h s keys s' e out on H.
  destruct (run_session h _ _ _ _ _ _ _ H empty_buffer false blank_scalar blank_holds) as (He & b & cont & E & Hb).
  exists b, cont. split; [exact E|]. split; [assumption|]. destruct Hb as (Hl & Hc & Hp). unfold screen. cbn [rp_buffer rp_state rp_cont].
  rewrite Hl, Hc, Hp, map_last, <- (map_length encode (ed_done e)), nth_last. destruct He as (_ & H1 & H2).
  rewrite chars_encode by (apply Forall_app; now split). reflexivity.
Qed.
Print Assumptions repl_edits_partial.

(** C58, for ASCII keys: there is such a session, so the loop never panics, whatever the handler. *)
Theorem repl_ascii_partial : forall {S} (h : handler S) keys s, Forall ascii_key keys ->
  exists s' e out on, session h ascii_left s blank keys s' e out on.
Proof.
  intros S h keys s Hk. assert (B : ascii_editor blank) by (repeat split; constructor). revert s B. generalize blank. induction Hk as [| k keys Hk Hks IH]; intros e s He.
  - do 4 eexists. constructor.
  - destruct (react_total h s e k) as (s1 & e1 & out1 & on & R). destruct (ascii_reacts h s e k s1 e1 out1 on He Hk R) as [Hok He1].
    destruct on.
    + destruct (IH e1 s1 He1) as (s' & e' & out & on & Hs). do 4 eexists. eapply SeGo; eassumption.
    + do 4 eexists. eapply SeStop; eassumption.
Qed.
Print Assumptions repl_ascii_partial.

(** A handler that wants a semicolon, and indents by two. *)
Definition semi : handler unit :=
  Handler (fun _ cont => if cont then lit ". " else lit "> ") (fun _ code => match rev code with 59%Z :: _ => true | _ => false end)
    (fun _ _ => 2) (fun s _ => (s, false)).

Example repl_case : option_map (@tn_code unit) (run semi (start tt) [KChar 97; KLeft; KChar 233; KEnter; KChar 59; KEnter]) =
  Some [encode [233; 97; 10; 32; 32; 59]%Z].
Proof. vm_compute. reflexivity. Qed.

(** C58 fails: typing two characters that are not ASCII panics. *)
Theorem repl_edits_refuted : exists keys, Forall (fun k => match k with KChar c => is_scalar c | _ => False end) keys /\
  forall S (h : handler S) s, run h (start s) keys = None.
Proof.
  exists [KChar 233; KChar 233]. split; [repeat apply Forall_cons; try apply Forall_nil; left; lia|]. intros S h s. reflexivity.
Qed.
Print Assumptions repl_edits_refuted.

(** C58 fails also without a panic: the character goes elsewhere than where the cursor is drawn. *)
Theorem repl_cursor_refuted : exists keys e b cont,
  (forall S (h : handler S) s, session h (fun _ _ => True) s blank keys s e [] true /\
     run h (start s) keys = Some (Turn (Repl s b cont) [] true) /\ chars (nth 0 (bf_lines b) []) <> ed_before e ++ ed_after e) /\
  ed_before e ++ ed_after e = [233; 233; 120]%Z /\ bf_lines b = [encode [233; 120; 233]%Z].
Proof.
  exists [KChar 233; KLeft; KChar 233; KRight; KChar 120], (Editor [] [233; 233; 120]%Z []). do 2 eexists. split; [|split].
  - intros S h s. split; [|split].
    + change (@nil (list Z)) with (@nil (list Z) ++ [] ++ [] ++ [] ++ [] ++ []).
      eapply SeGo; [exact I | apply ReChar |]. eapply SeGo; [exact I | apply ReLeft; apply (LeftChar [] [] 233 [])|].
      eapply SeGo; [exact I | apply ReChar |]. eapply SeGo; [exact I | apply ReRight; apply (RightChar [] [233%Z] 233 [])|].
      eapply SeGo; [exact I | apply ReChar |]. apply SeNil.
    + vm_compute. reflexivity.
    + vm_compute. discriminate.
  - reflexivity.
  - reflexivity.
Qed.
Print Assumptions repl_cursor_refuted.

(** C97, without backspace: the continuation prompt is shown exactly on lines other than the first. *)
Theorem continuation_prompt_partial : forall {S} (h : handler S) s keys t, ~ In KBackspace keys ->
  run h (start s) keys = Some t -> tn_on t = true -> (rp_cont (tn_repl t) = true <-> 0 < bf_current (rp_buffer (tn_repl t))).
Proof.
  intros S h s keys t Hn Hr Ho. assert (G : rp_cont (start s) = true <-> 0 < bf_current (rp_buffer (start s))) by (cbn; split; [discriminate | lia]).
  revert Hn t Hr Ho G. generalize (start s). induction keys as [| k keys IH]; intros r Hn t Hr Ho G; cbn [run] in Hr; [injection Hr as <-; exact G|].
  destruct (press h r k) as [t1|] eqn:E; [|discriminate]. destruct (tn_on t1) eqn:On; [|congruence].
  destruct (run h (tn_repl t1) keys) as [t2|] eqn:E2; [|discriminate]. injection Hr as <-. cbn [tn_repl tn_on] in *.
  refine (IH (tn_repl t1) _ t2 E2 Ho _); [intros H; apply Hn; now right|]. clear IH E2 Ho t2.
  assert (I1 : forall b c b', insert b c = Some b' -> bf_current b' = bf_current b).
  { intros b c b'. unfold insert. destruct (nth_error _ _); [|discriminate]. destruct (string_insert _ _ _); [|discriminate]. intros H. now injection H as <-. }
  assert (I2 : forall n b b', insert_spaces n b = Some b' -> bf_current b' = bf_current b).
  { induction n as [| n IHn]; intros b b' H; cbn in H; [now injection H as <-|]. destruct (insert b 32) eqn:Ei; [|discriminate]. rewrite (IHn _ _ H). eauto. }
  destruct k as [c | c | | | | |]; cbn [press] in E.
  - destruct (insert _ c) as [b|] eqn:Ei; [|discriminate]. injection E as <-. cbn. rewrite (I1 _ _ _ Ei). exact G.
  - destruct (c =? 99)%Z; [injection E as <-; cbn; split; [discriminate | lia]|]. destruct (c =? 100)%Z; [injection E as <-; exact G|].
    destruct (insert _ c) as [b|] eqn:Ei; [|discriminate]. injection E as <-. cbn. rewrite (I1 _ _ _ Ei). exact G.
  - destruct (hd_complete _ _ _).
    + destruct (hd_handle _ _ _) as [s' [|]]; injection E as <-; [discriminate On | cbn; split; [discriminate | lia]].
    + destruct (insert_spaces _ _) as [b|] eqn:Ei; [|discriminate]. injection E as <-. cbn. rewrite (I2 _ _ _ Ei). cbn. split; [lia | reflexivity].
  - exfalso. apply Hn. now left.
  - injection E as <-. cbn [tn_repl rp_cont rp_buffer]. destruct (0 <? bf_cursor (rp_buffer r)); exact G.
  - destruct (nth_error _ _); [|discriminate]. injection E as <-. cbn [tn_repl rp_cont rp_buffer]. destruct (_ <? _); exact G.
  - injection E as <-. exact G.
Qed.
Print Assumptions continuation_prompt_partial.

Example continuation_case : exists t, run semi (start tt) [KChar 97; KEnter] = Some t /\ rp_cont (tn_repl t) = true.
Proof. eexists. split; [vm_compute; reflexivity | reflexivity]. Qed.

(** C97 fails: after joining the lines again the first line has the continuation prompt. *)
Theorem continuation_prompt_refuted : exists S (h : handler S) s keys t, run h (start s) keys = Some t /\ tn_on t = true /\
  length (bf_lines (rp_buffer (tn_repl t))) = 1 /\ rp_cont (tn_repl t) = true.
Proof. exists unit, semi, tt, [KChar 97; KEnter; KBackspace; KBackspace; KBackspace]. eexists. split; [vm_compute; reflexivity|]. repeat split. Qed.
Print Assumptions continuation_prompt_refuted.
