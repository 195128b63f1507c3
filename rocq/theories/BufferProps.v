(** Property C12: emitting into a source buffer. *)
From Verif Require Import Base Utf8 Utf8Facts SimdModel CursorModel BufferModel BufferSpec BufferProofs.
Local Open Scope Z_scope.

(** The output is the pieces joined with a space exactly where word meets word. *)
Theorem emit_joins_pieces : forall alnum pieces, Forall (Forall is_scalar) pieces ->
  buffer_emit alnum (map encode pieces) = encode (fold_left (join_nonempty alnum) pieces []).
Proof. exact emit_spec. Qed.
Print Assumptions emit_joins_pieces.

(** Consequently the words of the output are the words of the pieces: none fuse,
    none are split, none are lost. *)
Theorem emit_keeps_words : forall alnum pieces,
  alnum 32 = false -> Forall (Forall is_scalar) pieces ->
  words alnum (chars (buffer_emit alnum (map encode pieces))) = concat (map (words alnum) pieces).
Proof.
  intros alnum pieces Ha Hp. rewrite emit_spec by assumption. rewrite chars_encode.
  - rewrite words_fold by assumption. reflexivity.
  - assert (H : forall ps cur, Forall is_scalar cur -> Forall (Forall is_scalar) ps ->
                Forall is_scalar (fold_left (join_nonempty alnum) ps cur)).
    { induction ps as [| p ps IH]; intros cur Hc Hps; [assumption|]. inv Hps. simpl. apply IH; [|assumption].
      destruct (buffer_push_spec alnum cur p Hc H1) as [_ Hs]. now destruct p. }
    apply H; [constructor | assumption].
Qed.
Print Assumptions emit_keeps_words.

Example emit_example :
  let pieces := [lit "let"; lit ""; lit "a"; lit "="; lit "f"; lit "("; lit "_x"; lit "1"; lit ")"] in
  buffer_emit is_ascii_alphanumeric pieces = lit "let a=f(_x 1)" /\
  words is_ascii_alphanumeric (lit "let a=f(_x 1)") = [lit "let"; lit "a"; lit "f"; lit "_x"; lit "1"].
Proof. split; vm_compute; reflexivity. Qed.
