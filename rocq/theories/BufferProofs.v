From Verif Require Import Base Utf8 Utf8Facts CursorModel CursorProofs BufferModel BufferSpec.
Local Open Scope Z_scope.

Lemma last_char_encode : forall cs, Forall is_scalar cs ->
  last_char (encode cs) = match rev cs with [] => None | c :: _ => Some c end.
Proof. intros cs H. unfold last_char. now rewrite chars_encode. Qed.

Lemma first_char_encode : forall cs, Forall is_scalar cs ->
  first_char (encode cs) = match cs with [] => None | c :: _ => Some c end.
Proof.
  intros cs H. unfold first_char. destruct cs as [| c cs]; [reflexivity|].
  inv H. now rewrite decode1_encode.
Qed.

Section Alnum.
Variable alnum : Z -> bool.

Lemma buffer_push_spec : forall cur cs, Forall is_scalar cur -> Forall is_scalar cs ->
  let b := Buffer (encode cur) (match rev cur with [] => None | c :: _ => Some c end) in
  let out := match cs with [] => cur | _ => join alnum cur cs end in
  buffer_push alnum b (encode cs)
  = Buffer (encode out) (match rev out with [] => None | c :: _ => Some c end) /\ Forall is_scalar out.
Proof.
  intros cur cs Hcur Hcs. cbv zeta. unfold buffer_push.
  rewrite first_char_encode by assumption. destruct cs as [| c cs]; [split; [reflexivity | assumption]|].
  cbn [bf_last bf_inner].
  rewrite last_char_encode by assumption. unfold join.
  assert (Hlast : forall x, match rev (x ++ c :: cs) with [] => None | a :: _ => Some a end
                 = match rev (c :: cs) with [] => None | a :: _ => Some a end).
  { intros x. rewrite rev_app_distr. destruct (rev (c :: cs)) as [| a l] eqn:E; [|reflexivity].
    simpl in E. symmetry in E. now apply app_cons_not_nil in E. }
  assert (Hw : is_word_char alnum match rev cur with [] => None | a :: _ => Some a end
               && is_word_char alnum (Some c) = ends_in_word alnum cur && starts_in_word alnum (c :: cs)).
  { unfold ends_in_word, starts_in_word, word, is_word_char. destruct (rev cur); reflexivity. }
  rewrite Hw. destruct (ends_in_word alnum cur && starts_in_word alnum (c :: cs)).
  - split.
    + rewrite (app_assoc cur [32] (c :: cs)), (Hlast (cur ++ [32])). f_equal.
      rewrite (encode_app (cur ++ [32])), encode_app. reflexivity.
    + repeat (apply Forall_app; split); try assumption. constructor; [left; lia | constructor].
  - split.
    + cbn [app]. rewrite Hlast, encode_app. reflexivity.
    + apply Forall_app. now split.
Qed.

Lemma emit_fold : forall pieces cur, Forall is_scalar cur -> Forall (Forall is_scalar) pieces ->
  fold_left (buffer_push alnum) (map encode pieces)
    (Buffer (encode cur) (match rev cur with [] => None | c :: _ => Some c end))
  = Buffer (encode (fold_left (join_nonempty alnum) pieces cur))
      (match rev (fold_left (join_nonempty alnum) pieces cur) with [] => None | c :: _ => Some c end).
Proof.
  induction pieces as [| p pieces IH]; intros cur Hc Hp; [reflexivity|].
  cbn [map fold_left]. inv Hp. destruct (buffer_push_spec cur p Hc H1) as [-> Hs]. cbv zeta in Hs.
  replace (match p with [] => cur | _ :: _ => join alnum cur p end) with (join_nonempty alnum cur p) in *
    by now destruct p.
  now apply IH.
Qed.

Lemma emit_spec : forall pieces, Forall (Forall is_scalar) pieces ->
  buffer_emit alnum (map encode pieces) = encode (fold_left (join_nonempty alnum) pieces []).
Proof.
  intros pieces H. unfold buffer_emit, buffer_empty.
  change [] with (encode []) at 1.
  change None with (match rev ([] : list Z) with [] => None | c :: _ => Some c end).
  rewrite emit_fold by (assumption || constructor). reflexivity.
Qed.

(** ** Words *)

Hypothesis space_not_word : alnum 32 = false.

Lemma runs_break : forall a cur c b, word alnum c = false ->
  runs alnum cur (a ++ c :: b) = runs alnum cur a ++ runs alnum [] b.
Proof.
  induction a as [| x a IH]; intros cur c b Hc; simpl.
  - rewrite Hc. destruct cur; reflexivity.
  - destruct (word alnum x); [now apply IH|]. rewrite IH by assumption. now rewrite app_assoc.
Qed.

Lemma words_apart : forall a b, ends_in_word alnum a && starts_in_word alnum b = false ->
  words alnum (a ++ b) = words alnum a ++ words alnum b.
Proof.
  intros a b H. unfold words. apply andb_false_iff in H. destruct H as [H | H].
  - unfold ends_in_word in H. destruct (rev a) as [| c l] eqn:E.
    + apply (f_equal (@rev Z)) in E. rewrite rev_involutive in E. simpl in E. subst a. reflexivity.
    + apply (f_equal (@rev Z)) in E. rewrite rev_involutive in E. simpl in E. subst a.
      rewrite <- app_assoc. cbn [app]. rewrite !runs_break by assumption.
      cbn [runs]. now rewrite app_nil_r.
  - destruct b as [| c b]; [simpl; rewrite !app_nil_r; reflexivity|]. simpl in H.
    rewrite runs_break by assumption. f_equal. simpl. now rewrite H.
Qed.

Lemma words_join : forall a b, words alnum (join alnum a b) = words alnum a ++ words alnum b.
Proof.
  intros a b. unfold join. destruct (ends_in_word alnum a && starts_in_word alnum b) eqn:E.
  - cbn [app]. unfold words. rewrite runs_break; [reflexivity|]. unfold word. now rewrite space_not_word.
  - now apply words_apart.
Qed.

Lemma words_fold : forall pieces cur,
  words alnum (fold_left (join_nonempty alnum) pieces cur)
  = words alnum cur ++ concat (map (words alnum) pieces).
Proof.
  induction pieces as [| p pieces IH]; intros cur; simpl; [now rewrite app_nil_r|].
  rewrite IH. rewrite app_assoc. f_equal. destruct p as [| c p]; simpl.
  - unfold words at 2. simpl. now rewrite app_nil_r.
  - apply words_join.
Qed.
End Alnum.
