From Verif Require Import Base Utf8 Utf8Facts SimdModel ScanSpec.
Local Open Scope Z_scope.

(** Scalar reference scans. *)
Fixpoint span_len (p : Z -> bool) (s : str) : nat :=
  match s with [] => 0%nat | b :: r => if p b then S (span_len p r) else 0%nat end.

Fixpoint find_pos (p : Z -> bool) (s : str) : option nat :=
  match s with
  | [] => None
  | b :: r => if p b then Some 0%nat
              else match find_pos p r with Some i => Some (S i) | None => None end
  end.

Lemma span_len_le : forall p s, (span_len p s <= length s)%nat.
Proof. induction s as [| b s IH]; simpl; [lia|]. destruct (p b); lia. Qed.

Lemma span_len_run : forall p (P : Z -> Prop) s,
  (forall b, p b = true <-> P b) -> longest_run P s (span_len p s).
Proof.
  intros p P s HP. split; [apply span_len_le|]. split.
  - induction s as [| a s IH]; intros k b Hk Hn; simpl in *; [lia|].
    destruct (p a) eqn:E; [|lia]. destruct k as [| k]; simpl in Hn.
    + inv Hn. now apply HP.
    + apply (IH k); [lia | assumption].
  - induction s as [| a s IH]; intros b Hn; simpl in *; [discriminate|].
    destruct (p a) eqn:E; simpl in Hn.
    + now apply IH.
    + inv Hn. intros H. apply HP in H. congruence.
Qed.

Lemma find_pos_first : forall p (P : Z -> Prop) s,
  (forall b, p b = true <-> P b) -> first_position P s (find_pos p s).
Proof.
  intros p P s HP. induction s as [| a s IH]; simpl.
  - intros k b H. destruct k; discriminate.
  - destruct (p a) eqn:E.
    + split; [exists a; split; [reflexivity | now apply HP]|]. intros k b Hk. lia.
    + assert (Ha : ~ P a) by (intros H; apply HP in H; congruence).
      destruct (find_pos p s) as [i|]; simpl in *.
      * destruct IH as [[b [Hb Pb]] Hlt]. split; [exists b; auto|].
        intros k b' Hk Hn. destruct k as [| k]; simpl in Hn; [now inv Hn|].
        apply (Hlt k); [lia | assumption].
      * intros k b Hn. destruct k as [| k]; simpl in Hn; [now inv Hn|]. now apply (IH k).
Qed.

Lemma longest_run_unique : forall P s i j, longest_run P s i -> longest_run P s j -> i = j.
Proof.
  intros P s i j (Hi1 & Hi2 & Hi3) (Hj1 & Hj2 & Hj3).
  destruct (Nat.lt_trichotomy i j) as [H | [H | H]]; [|assumption|].
  - destruct (nth_error s i) as [b|] eqn:E; [|apply nth_error_None in E; lia].
    exfalso. apply (Hi3 b); [reflexivity|]. now apply (Hj2 i).
  - destruct (nth_error s j) as [b|] eqn:E; [|apply nth_error_None in E; lia].
    exfalso. apply (Hj3 b); [reflexivity|]. now apply (Hi2 j).
Qed.

Lemma first_set_find : forall p s, first_set (map p s) = find_pos p s.
Proof.
  induction s as [| b s IH]; simpl; [reflexivity|]. destruct (p b); [reflexivity|]. now rewrite IH.
Qed.

Lemma find_pos_neg_span : forall p s,
  find_pos (fun b => negb (p b)) s = if (span_len p s <? length s)%nat then Some (span_len p s) else None.
Proof.
  induction s as [| b s IH]; simpl; [reflexivity|]. destruct (p b) eqn:E; simpl.
  - rewrite IH. pose proof (span_len_le p s).
    destruct (span_len p s <? length s)%nat eqn:E1.
    + replace (S (span_len p s) <? S (length s))%nat with true by lia. reflexivity.
    + replace (S (span_len p s) <? S (length s))%nat with false by lia. reflexivity.
  - reflexivity.
Qed.

Lemma span_len_app : forall p a b,
  span_len p (a ++ b) = if (span_len p a <? length a)%nat then span_len p a
                        else (length a + span_len p b)%nat.
Proof.
  induction a as [| x a IH]; intros b; simpl; [reflexivity|].
  destruct (p x); [|reflexivity]. rewrite IH.
  destruct (span_len p a <? length a)%nat eqn:E.
  - now replace (S (span_len p a) <? S (length a))%nat with true by lia.
  - now replace (S (span_len p a) <? S (length a))%nat with false by lia.
Qed.

Lemma find_pos_app : forall p a b,
  find_pos p (a ++ b) = match find_pos p a with
                        | Some i => Some i
                        | None => match find_pos p b with
                                  | Some i => Some (length a + i)%nat | None => None end
                        end.
Proof.
  induction a as [| x a IH]; intros b; simpl.
  - now destruct (find_pos p b).
  - destruct (p x); [reflexivity|]. rewrite IH. destruct (find_pos p a); [reflexivity|].
    now destruct (find_pos p b).
Qed.

Lemma mask_all_span : forall p s,
  mask_all (map p s) = negb (span_len p s <? length s)%nat.
Proof.
  induction s as [| b s IH]; simpl; [reflexivity|]. unfold mask_all in *. simpl.
  destruct (p b); simpl.
  - rewrite IH. destruct (span_len p s <? length s)%nat eqn:E; simpl; lia.
  - reflexivity.
Qed.

Lemma mask_any_find : forall p s,
  mask_any (map p s) = match find_pos p s with Some _ => true | None => false end.
Proof.
  induction s as [| b s IH]; simpl; [reflexivity|]. unfold mask_any in *. simpl.
  destruct (p b); simpl; [reflexivity|]. rewrite IH. now destruct (find_pos p s).
Qed.

Lemma skip_tail_span : forall scalar s i, skip_tail scalar s i = (i + span_len scalar s)%nat.
Proof.
  induction s as [| b s IH]; intros i; simpl; [lia|].
  destruct (scalar b); simpl; [|lia]. rewrite IH. lia.
Qed.

Lemma find_tail_pos : forall scalar s i,
  find_tail scalar s i = match find_pos scalar s with Some k => Some (i + k)%nat | None => None end.
Proof.
  induction s as [| b s IH]; intros i; simpl; [reflexivity|].
  destruct (scalar b); [now rewrite Nat.add_0_r|]. rewrite IH.
  destruct (find_pos scalar s); [|reflexivity]. f_equal. lia.
Qed.

Lemma span_len_ext : forall p q s,
  (forall b, In b s -> p b = q b) -> span_len p s = span_len q s.
Proof.
  induction s as [| b s IH]; intros H; simpl; [reflexivity|].
  rewrite (H b) by now left. destruct (q b); [|reflexivity]. f_equal. apply IH.
  intros x Hx. apply H. now right.
Qed.

Lemma find_pos_ext : forall p q s,
  (forall b, In b s -> p b = q b) -> find_pos p s = find_pos q s.
Proof.
  induction s as [| b s IH]; intros H; simpl; [reflexivity|].
  rewrite (H b) by now left. rewrite IH; [reflexivity|]. intros x Hx. apply H. now right.
Qed.

Lemma skip_blocks_span : forall fuel lane scalar s i,
  (forall b, lane b = scalar b) -> (length s < fuel)%nat ->
  skip_blocks fuel lane scalar s i = Some (i + span_len scalar s)%nat.
Proof.
  induction fuel as [| f IH]; intros lane scalar s i He Hf; [lia|].
  cbn [skip_blocks]. destruct (LANES <=? length s)%nat eqn:El.
  - apply Nat.leb_le in El. unfold LANES in *.
    assert (Hsp : span_len scalar s = span_len lane s).
    { apply span_len_ext. intros; symmetry; apply He. }
    assert (Hsplit : span_len lane s
      = if (span_len lane (firstn 32 s) <? length (firstn 32 s))%nat
        then span_len lane (firstn 32 s)
        else (length (firstn 32 s) + span_len lane (skipn 32 s))%nat).
    { rewrite <- (firstn_skipn 32 s) at 1. apply span_len_app. }
    rewrite mask_all_span, negb_involutive. rewrite map_map, first_set_find, find_pos_neg_span.
    assert (Hrec : skip_blocks f lane scalar (skipn 32 s) (i + 32)
                   = Some (i + 32 + span_len scalar (skipn 32 s))%nat).
    { apply IH; [assumption|]. rewrite skipn_length. lia. }
    assert (Hfl : length (firstn 32 s) = 32%nat) by (rewrite firstn_length_le; lia).
    destruct (span_len lane (firstn 32 s) <? length (firstn 32 s))%nat eqn:E.
    + now rewrite Hsp, Hsplit.
    + rewrite Hrec, Hsp, Hsplit, Hfl.
      rewrite (span_len_ext scalar lane (skipn 32 s)) by (intros; symmetry; apply He).
      f_equal. lia.
  - now rewrite skip_tail_span.
Qed.

Lemma simd_skip_span : forall lane scalar s,
  (forall b, lane b = scalar b) -> simd_skip lane scalar s = Some (span_len scalar s).
Proof. intros. unfold simd_skip. now rewrite skip_blocks_span by (assumption || lia). Qed.

Lemma find_blocks_pos : forall fuel lane scalar s i,
  (forall b, lane b = scalar b) -> (length s < fuel)%nat ->
  find_blocks fuel lane scalar s i
  = Answer (match find_pos scalar s with Some k => Some (i + k)%nat | None => None end).
Proof.
  induction fuel as [| f IH]; intros lane scalar s i He Hf; [lia|].
  cbn [find_blocks]. destruct (LANES <=? length s)%nat eqn:El.
  - apply Nat.leb_le in El. unfold LANES in *. rewrite first_set_find.
    assert (Hs : find_pos scalar s = match find_pos lane (firstn 32 s) with
                 | Some i => Some i
                 | None => match find_pos scalar (skipn 32 s) with
                           | Some i => Some (length (firstn 32 s) + i)%nat | None => None end end).
    { rewrite <- (firstn_skipn 32 s) at 1. rewrite find_pos_app.
      now rewrite (find_pos_ext scalar lane (firstn 32 s)) by (intros; symmetry; apply He). }
    rewrite Hs. destruct (find_pos lane (firstn 32 s)); [reflexivity|].
    rewrite IH; [|assumption|rewrite skipn_length; lia].
    rewrite firstn_length_le by lia. destruct (find_pos scalar (skipn 32 s)); [|reflexivity].
    do 2 f_equal. lia.
  - now rewrite find_tail_pos.
Qed.

Lemma find_blocks_any_pos : forall fuel lane scalar s i,
  (forall b, lane b = scalar b) -> (length s < fuel)%nat ->
  find_blocks_any fuel lane scalar s i
  = Answer (match find_pos scalar s with Some k => Some (i + k)%nat | None => None end).
Proof.
  intros fuel lane scalar s i He Hf. rewrite <- (find_blocks_pos fuel lane) by assumption.
  clear Hf. revert s i.
  induction fuel as [| f IH]; intros s i; [reflexivity|].
  cbn [find_blocks find_blocks_any]. destruct (LANES <=? length s)%nat; [|reflexivity].
  rewrite mask_any_find, first_set_find.
  destruct (find_pos lane (firstn LANES s)); [reflexivity | apply IH].
Qed.

Lemma find_pos_lt : forall p s i, find_pos p s = Some i -> (i < length s)%nat.
Proof.
  induction s as [| b s IH]; intros i H; simpl in *; [discriminate|].
  destruct (p b); [inv H; lia|]. destruct (find_pos p s); [|discriminate]. inv H.
  specialize (IH n eq_refl). lia.
Qed.

Ltac lanes := intros; unfold lane_eq, lane_ge, lane_le, is_ascii_alphanumeric,
  is_ascii_alphabetic, is_ascii_lower, is_ascii_upper, is_ascii_hexdigit, is_ascii_digit,
  whitespace_byte, digit_byte, ident_byte, hex_byte in *; lia.

Lemma find_byte_ok : forall s x, exists r, find_byte s x = Answer r /\ first_position (fun b => b = x) s r.
Proof.
  intros. unfold find_byte. rewrite find_blocks_pos by (lanes || lia).
  eexists. split; [reflexivity|]. pose proof (find_pos_first (fun b => b =? x) (fun b => b = x) s) as H.
  specialize (H ltac:(lanes)). now destruct (find_pos (fun b => b =? x) s).
Qed.

Lemma simd_skip_ok : forall lane scalar P s,
  (forall b, lane b = scalar b) -> (forall b, scalar b = true <-> P b) ->
  exists i, simd_skip lane scalar s = Some i /\ longest_run P s i.
Proof.
  intros lane scalar P s H1 H2. exists (span_len scalar s).
  split; [now apply simd_skip_span | now apply span_len_run].
Qed.

Lemma find_first_of_4_ok : forall s a b c d, exists r,
  find_first_of_4 s a b c d = Answer r /\
  first_position (fun x => x = a \/ x = b \/ x = c \/ x = d) s r.
Proof.
  intros. unfold find_first_of_4. rewrite find_blocks_any_pos by (lanes || lia).
  eexists. split; [reflexivity|].
  pose proof (find_pos_first (fun x => (x =? a) || (x =? b) || (x =? c) || (x =? d))
    (fun x => x = a \/ x = b \/ x = c \/ x = d) s ltac:(lanes)) as H.
  now destruct (find_pos _ s).
Qed.

Lemma find_pos_none_span : forall p s, find_pos p s = None -> span_len (fun b => negb (p b)) s = length s.
Proof.
  induction s as [| b s IH]; intros H; simpl in *; [reflexivity|].
  destruct (p b); [discriminate|]. simpl. destruct (find_pos p s); [discriminate|]. now rewrite IH.
Qed.

Lemma find_pos_some_span : forall p s i, find_pos p s = Some i -> span_len (fun b => negb (p b)) s = i.
Proof.
  induction s as [| b s IH]; intros i H; simpl in *; [discriminate|].
  destruct (p b); simpl; [now inv H|]. destruct (find_pos p s); [|discriminate]. inv H. now rewrite (IH n).
Qed.

Lemma skip_until_span : forall s x, skip_until s x = Some (span_len (fun b => negb (b =? x)) s).
Proof.
  intros s x. unfold skip_until. rewrite find_blocks_any_pos by (lanes || lia).
  destruct (find_pos (fun b => b =? x) s) eqn:E; simpl.
  - now rewrite (find_pos_some_span _ _ _ E).
  - now rewrite (find_pos_none_span _ _ E).
Qed.

Lemma skip_until_ok : forall s x, exists i,
  skip_until s x = Some i /\ longest_run (fun b => b <> x) s i.
Proof.
  intros s x. exists (span_len (fun b => negb (b =? x)) s).
  split; [apply skip_until_span | apply span_len_run; lanes].
Qed.
