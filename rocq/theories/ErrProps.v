From Verif Require Import Base Utf8 HiModel HiProofs CursorProofs DiagProofs TestProofs ErrModel.

(** ** Taking texts apart *)
Lemma last_split : forall (c : Z) a b a' b', ~ In c b -> ~ In c b' -> a ++ c :: b = a' ++ c :: b' -> a = a' /\ b = b'.
Proof.
  intros c. induction a as [|x a IH]; intros b [|y a'] b' Hb Hb' E; cbn in E.
  - injection E as ->. auto.
  - injection E as -> E. subst b. exfalso. apply Hb. apply in_or_app. right. now left.
  - injection E as <- E. subst b'. exfalso. apply Hb'. apply in_or_app. right. now left.
  - injection E as <- E. destruct (IH b a' b' Hb Hb' E) as [-> ->]. auto.
Qed.

Lemma dec_no : forall n c, (c < 48 \/ 57 < c)%Z -> ~ In c (dec n).
Proof. intros n c H X. apply dec_clean in X. lia. Qed.

Lemma show_source_inj : forall x y s t, x ++ show_source s = y ++ show_source t -> x = y /\ s = t.
Proof.
  intros x y [n|] [m|] E; cbn [show_source] in E.
  - rewrite !app_assoc in E. apply app_inj_tail in E. destruct E as [E _].
    change (lit "Some(") with (lit "Some" ++ [40%Z]) in E. rewrite <- !app_assoc in E. cbn [app] in E.
    rewrite !app_assoc in E. apply last_split in E; [|apply dec_no; lia | apply dec_no; lia].
    destruct E as [E1 E2]. apply dec_inj in E2. subst. apply app_inv_tail in E1. auto.
  - exfalso. rewrite !app_assoc in E. change (lit "None") with (lit "Non" ++ [101%Z]) in E. rewrite app_assoc in E.
    apply app_inj_tail in E. destruct E as [_ E]. discriminate.
  - exfalso. rewrite !app_assoc in E. change (lit "None") with (lit "Non" ++ [101%Z]) in E. rewrite app_assoc in E.
    apply app_inj_tail in E. destruct E as [_ E]. discriminate.
  - apply app_inv_tail in E. auto.
Qed.

Lemma place_inj : forall x y s t n m, x ++ place s n = y ++ place t m -> x = y /\ s = t /\ n = m.
Proof.
  intros x y s t n m E. unfold place in E. rewrite !app_assoc in E. rewrite <- !(app_assoc _ (lit ":")) in E.
  change (lit ":" ++ dec n) with (58%Z :: dec n) in E. change (lit ":" ++ dec m) with (58%Z :: dec m) in E.
  apply last_split in E; [|apply dec_no; lia | apply dec_no; lia]. destruct E as [E1 E2].
  apply dec_inj in E2. apply show_source_inj in E1. tauto.
Qed.

(** From the left: the source stops at the first closing bracket followed by another. *)
Lemma first_split : forall (c : Z) a b a' b', ~ In c a -> ~ In c a' -> a ++ c :: b = a' ++ c :: b' -> a = a' /\ b = b'.
Proof.
  intros c. induction a as [|x a IH]; intros b [|y a'] b' Ha Ha' E; cbn in E.
  - injection E as ->. auto.
  - injection E as -> E. exfalso. apply Ha'. now left.
  - injection E as <- E. exfalso. apply Ha. now left.
  - injection E as <- E. destruct (IH b a' b') as [-> ->]; auto; intros X; [apply Ha | apply Ha']; now right.
Qed.

Lemma show_source_left : forall s t x y, show_source s ++ lit ")" ++ lit ": " ++ x = show_source t ++ lit ")" ++ lit ": " ++ y -> s = t /\ x = y.
Proof.
  intros [n|] [m|] x y E; cbn [show_source] in E.
  - rewrite <- !app_assoc in E. apply app_inv_head in E.
    change (lit ")" ++ lit ")" ++ lit ": " ++ x) with (41%Z :: lit "): " ++ x) in E.
    change (lit ")" ++ lit ")" ++ lit ": " ++ y) with (41%Z :: lit "): " ++ y) in E.
    apply first_split in E; [|apply dec_no; lia | apply dec_no; lia]. destruct E as [E1 E2].
    apply dec_inj in E1. apply app_inv_head in E2. subst. auto.
  - exfalso. discriminate E.
  - exfalso. discriminate E.
  - repeat apply app_inv_head in E. auto.
Qed.

(** ** Keys *)
Definition sort_of (e : error) : nat :=
  match e with
  | EIo _ _ => 0 | ESyntax _ _ _ => 1 | EChar _ _ _ => 2 | EToken _ _ _ => 3 | EEof _ _ => 4 | ECustom _ => 5 | ETheme _ => 6
  | EFormatName _ => 7 | EColor _ => 8 | EFormat _ => 9 | ESemantic _ => 10 | EProtocol _ => 11 | EExpected _ _ _ => 12
  | EName _ _ _ => 13 | EComma _ _ => 14 | ETest _ _ _ => 15 | ERegenerated _ => 16 | ESerde _ => 17 | EDeserialize _ => 18
  | EXml _ => 19 | EZip _ => 20 | EParse _ => 21 | EInternal _ => 22
  end.

Fixpoint clash (a b : str) : bool :=
  match a, b with x :: a', y :: b' => negb (x =? y)%Z || clash a' b' | _, _ => false end.
Lemma clash_ne : forall a b x y, clash a b = true -> a ++ x <> b ++ y.
Proof.
  induction a as [|u a IH]; intros [|v b] x y H E; try discriminate. cbn in *. injection E as -> E.
  rewrite Z.eqb_refl in H. cbn in H. exact (IH b x y H E).
Qed.

Lemma keys_apart : forall p e1 e2, display p e1 = display p e2 -> sort_of e1 = sort_of e2.
Proof.
  intros p e1 e2 E. unfold display in E.
  destruct e1, e2; try reflexivity; exfalso; revert E; apply clash_ne; reflexivity.
Qed.

(** ** C142 *)
(** What a report shows of an error: everything but the kind and code of an input/output error. *)
Definition shown (e : error) : error := match e with EIo e s => EIo (IoErr 0 None (io_text e)) s | other => other end.

Theorem error_text_identifies : forall show_path, (forall p q, show_path p = show_path q -> p = q) ->
  forall e1 e2, display show_path e1 = display show_path e2 ->
  key e1 = key e2 /\
  ((forall p x y, e1 <> ETest p x y) -> shown e1 = shown e2).
Proof.
  intros sp Hp e1 e2 E. pose proof (keys_apart _ _ _ E) as S. unfold display in E.
  split; [destruct e1, e2; try discriminate S; reflexivity|]. intros HT.
  destruct e1, e2; try discriminate S; cbn [key details shown] in *; clear S; apply app_inv_head in E;
    try (subst; reflexivity); try (apply app_inv_head in E; subst; reflexivity).
  - apply app_inv_head in E. apply show_source_left in E. destruct E as [-> ->]. reflexivity.
  - rewrite !app_assoc in E. apply app_inj_tail in E. destruct E as [E _]. apply place_inj in E. destruct E as (E & -> & ->).
    apply app_inv_tail in E. now subst.
  - apply app_inv_head in E. rewrite !app_assoc in E. apply place_inj in E. destruct E as (E & -> & ->).
    apply app_inv_tail in E. injection E as ->. reflexivity.
  - apply app_inv_head in E. rewrite !app_assoc in E. apply place_inj in E. destruct E as (E & -> & ->).
    apply app_inv_tail in E. now subst.
  - apply place_inj in E. destruct E as (_ & -> & ->). reflexivity.
  - apply app_inv_head in E. rewrite !app_assoc in E. apply place_inj in E. destruct E as (E & -> & ->).
    apply app_inv_tail in E. now subst.
  - apply app_inv_head in E. rewrite !app_assoc in E. apply place_inj in E. destruct E as (E & -> & ->).
    apply app_inv_tail in E. now subst.
  - apply place_inj in E. destruct E as (_ & -> & ->). reflexivity.
  - exfalso. eapply HT. reflexivity.
  - apply app_inv_head, Hp in E. now subst.
Qed.
Print Assumptions error_text_identifies.

Example error_texts :
  display (fun p => p) (ESyntax (lit "bad") 12 (Some 3)) = lit "error.syntaxbad: (at Some(3):12)" /\
  display (fun p => p) (EEof 7 None) = lit "error.unexpected_eofunexpected end of file at None:7" /\
  display (fun p => p) (ESyntax (lit "a: (at None:1)") 2 None) <> display (fun p => p) (ESyntax (lit "a") 1 None).
Proof. split; [reflexivity|]. split; [reflexivity | discriminate]. Qed.

Theorem test_failure_text_refuted : exists p x y x' y',
  display (fun p => p) (ETest p x y) = display (fun p => p) (ETest p x' y') /\ x <> x'.
Proof.
  exists (lit "f"), (lit "1"), (lit "2, found 3"), (lit "1, found 2"), (lit "3"). split; [reflexivity | discriminate].
Qed.
Print Assumptions test_failure_text_refuted.

(** ** C143 *)
(** The source an error says it comes from; [None]: errors of this sort have none. *)
Definition source_of (e : error) : option source_id :=
  match e with
  | EIo _ s | ESyntax _ _ s | EChar _ _ s | EToken _ _ s | EEof _ s | EExpected _ _ s | EName _ _ s | EComma _ s => Some s
  | _ => None
  end.

Theorem source_attached_partial : forall n e, (forall off s, e <> EEof off s) ->
  match source_of e with
  | Some _ => source_of (with_source_id n e) = Some (Some n)
  | None => with_source_id n e = e
  end /\
  key (with_source_id n e) = key e /\
  (source_of e = Some (Some n) -> with_source_id n e = e) /\
  (forall m, with_source_id m (with_source_id n e) = with_source_id m e).
Proof.
  intros n e H. destruct e; cbn; try (exfalso; eapply H; reflexivity);
    (split; [reflexivity | split; [reflexivity | split; [|reflexivity]]]); intros X; congruence.
Qed.
Print Assumptions source_attached_partial.

Theorem source_attached_refuted : exists n e,
  source_of e = Some None /\ source_of (with_source_id n e) = Some None.
Proof. exists 1, (EEof 0 None). split; reflexivity. Qed.
Print Assumptions source_attached_refuted.

(** A copy reads the same as the original, and its source can be set in the same way. *)
Theorem copy_reads_same : forall show_path e, display show_path (clone e) = display show_path e /\
  shown (clone e) = shown e /\ (forall i s, e = EIo i s -> exists j, clone e = EIo j s /\ io_kind j = io_kind i) /\
  source_of (clone e) = source_of e /\ key (clone e) = key e /\ forall n, clone (with_source_id n e) = with_source_id n (clone e).
Proof.
  intros sp e. destruct e; cbn; (split; [reflexivity|]; split; [reflexivity|]; split; [|repeat split]); intros i s' E; try discriminate E.
  injection E as -> ->. eexists. split; reflexivity.
Qed.
Print Assumptions copy_reads_same.

Example error_copy : clone (EIo (IoErr 1 (Some 2) (lit "No such file")) None) = EIo (IoErr 1 None (lit "No such file")) None.
Proof. reflexivity. Qed.
Example error_sources : source_of (with_source_id 4 (EToken (lit "}") 3 None)) = Some (Some 4) /\
  with_source_id 4 (ECustom (lit "x")) = ECustom (lit "x").
Proof. split; reflexivity. Qed.
