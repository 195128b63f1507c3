(** Facts about UTF-8 strings used by all other developments. *)
From Verif Require Import Base Utf8.
Local Open Scope Z_scope.
Local Ltac Zify.zify_post_hook ::= Z.div_mod_to_equations.

Local Ltac some_pair :=
  match goal with |- Some (?a, ?r) = Some (?b, ?r) =>
    let H := fresh in assert (H : a = b) by lia; rewrite H; reflexivity end.

Lemma is_scalarb_spec : forall c, is_scalarb c = true <-> is_scalar c.
Proof. intros c. unfold is_scalarb, is_scalar. lia. Qed.

Lemma encode_char_length : forall c, length (encode_char c) = char_len c.
Proof.
  intros c. unfold encode_char, char_len.
  destruct (c <? 128), (c <? 2048), (c <? 65536); reflexivity.
Qed.

Lemma char_len_pos : forall c, (1 <= char_len c <= 4)%nat.
Proof.
  intros c. unfold char_len.
  destruct (c <? 128), (c <? 2048), (c <? 65536); lia.
Qed.

Lemma encode_char_nonempty : forall c, encode_char c <> [].
Proof.
  intros c H. pose proof (encode_char_length c) as Hl. rewrite H in Hl. simpl in Hl.
  pose proof (char_len_pos c). lia.
Qed.

Lemma encode_app : forall a b, encode (a ++ b) = encode a ++ encode b.
Proof.
  induction a as [| c a IH]; intros b; simpl; [reflexivity|].
  now rewrite IH, app_assoc.
Qed.

Lemma decode1_encode_char : forall c r,
  is_scalar c -> decode1 (encode_char c ++ r) = Some (c, r).
Proof.
  intros c r Hc. unfold is_scalar in Hc. unfold encode_char, decode1.
  destruct (c <? 128) eqn:E1.
  - simpl. now rewrite E1.
  - destruct (c <? 2048) eqn:E2.
    + cbn [app].
      destruct (192 + c / 64 <? 128) eqn:F1; [lia|].
      destruct (192 + c / 64 <? 224) eqn:F2; [|lia].
      some_pair.
    + destruct (c <? 65536) eqn:E3.
      * cbn [app].
        destruct (224 + c / 4096 <? 128) eqn:F1; [lia|].
        destruct (224 + c / 4096 <? 224) eqn:F2; [lia|].
        destruct (224 + c / 4096 <? 240) eqn:F3; [|lia].
        some_pair.
      * cbn [app].
        destruct (240 + c / 262144 <? 128) eqn:F1; [lia|].
        destruct (240 + c / 262144 <? 224) eqn:F2; [lia|].
        destruct (240 + c / 262144 <? 240) eqn:F3; [lia|].
        some_pair.
Qed.

Lemma decode1_encode : forall c cs,
  is_scalar c -> decode1 (encode (c :: cs)) = Some (c, encode cs).
Proof. intros. simpl. now apply decode1_encode_char. Qed.

Lemma encode_length_ge : forall cs, (length cs <= length (encode cs))%nat.
Proof.
  induction cs as [| c cs IH]; simpl; [lia|].
  rewrite app_length, encode_char_length. pose proof (char_len_pos c). lia.
Qed.

Lemma chars_fuel_encode : forall cs f,
  Forall is_scalar cs -> (length cs <= f)%nat -> chars_fuel f (encode cs) = cs.
Proof.
  induction cs as [| c cs IH]; intros f Hs Hf.
  - destruct f; reflexivity.
  - inv Hs. destruct f as [| f]; [simpl in Hf; lia|].
    simpl chars_fuel. rewrite decode1_encode_char by assumption.
    f_equal. apply IH; [assumption|]. simpl in Hf. lia.
Qed.

Lemma chars_encode : forall cs, Forall is_scalar cs -> chars (encode cs) = cs.
Proof.
  intros cs H. unfold chars. apply chars_fuel_encode; [assumption|].
  apply encode_length_ge.
Qed.

Lemma encode_inj : forall a b,
  Forall is_scalar a -> Forall is_scalar b -> encode a = encode b -> a = b.
Proof.
  intros a b Ha Hb H. rewrite <- (chars_encode a), <- (chars_encode b) by assumption.
  now rewrite H.
Qed.

Lemma valid_nil : valid [].
Proof. exists []. split; constructor. Qed.

Lemma valid_encode : forall cs, Forall is_scalar cs -> valid (encode cs).
Proof. intros cs H. now exists cs. Qed.

Lemma valid_app : forall a b, valid a -> valid b -> valid (a ++ b).
Proof.
  intros a b [ca [Ha ->]] [cb [Hb ->]]. exists (ca ++ cb).
  split; [now apply Forall_app | now rewrite encode_app].
Qed.

Lemma valid_concat : forall ls, Forall valid ls -> valid (concat ls).
Proof.
  induction ls as [| l ls IH]; intros H; simpl; [apply valid_nil|].
  inv H. apply valid_app; auto.
Qed.

Lemma valid_chars : forall s, valid s -> encode (chars s) = s /\ Forall is_scalar (chars s).
Proof.
  intros s [cs [H ->]]. rewrite chars_encode by assumption. auto.
Qed.

(** First byte of an encoded character is not a continuation byte, the others are. *)
Lemma encode_char_head : forall c, is_scalar c ->
  exists b t, encode_char c = b :: t /\ is_cont b = false /\ Forall (fun x => is_cont x = true) t.
Proof.
  intros c Hc. unfold is_scalar in Hc. unfold encode_char, is_cont.
  destruct (c <? 128) eqn:E1.
  - exists c, []. split; [reflexivity|]. split; [lia|constructor].
  - destruct (c <? 2048) eqn:E2.
    + eexists _, _. split; [reflexivity|]. split; [lia|]. repeat constructor. lia.
    + destruct (c <? 65536) eqn:E3.
      * eexists _, _. split; [reflexivity|]. split; [lia|]. repeat constructor; lia.
      * eexists _, _. split; [reflexivity|]. split; [lia|]. repeat constructor; lia.
Qed.

Lemma encode_char_bytes : forall c, is_scalar c -> Forall (fun x => 0 <= x < 256) (encode_char c).
Proof.
  intros c Hc. unfold is_scalar in Hc. unfold encode_char.
  destruct (c <? 128) eqn:E1; [repeat constructor; lia|].
  destruct (c <? 2048) eqn:E2; [repeat constructor; lia|].
  destruct (c <? 65536) eqn:E3; repeat constructor; lia.
Qed.

Lemma valid_bytes : forall s, valid s -> Forall (fun x => 0 <= x < 256) s.
Proof.
  intros s [cs [H ->]]. induction H as [| c cs Hc Hcs IH]; simpl; [constructor|].
  apply Forall_app. split; [now apply encode_char_bytes | assumption].
Qed.

Lemma valid_head : forall b s, valid (b :: s) -> is_cont b = false.
Proof.
  intros b s [cs [H Heq]]. destruct cs as [| c cs]; [discriminate|].
  inv H. destruct (encode_char_head c H2) as (b' & t & He & Hb & _).
  simpl in Heq. rewrite He in Heq. simpl in Heq. now inv Heq.
Qed.

Lemma is_boundary_app : forall a b, valid b -> is_boundary (a ++ b) (length a) = true.
Proof.
  intros a b Hb. unfold is_boundary. destruct (length a) as [| n] eqn:En; [reflexivity|].
  rewrite nth_error_app2 by lia. rewrite En, Nat.sub_diag.
  destruct b as [| x b]; cbn [nth_error].
  - rewrite app_nil_r, En. apply Nat.eqb_refl.
  - now rewrite (valid_head _ _ Hb).
Qed.

Lemma is_boundary_app' : forall a b n,
  valid b -> n = length a -> is_boundary (a ++ b) n = true.
Proof. intros a b n H ->. now apply is_boundary_app. Qed.

Lemma is_boundary_0 : forall s, is_boundary s 0 = true.
Proof. reflexivity. Qed.

Lemma is_boundary_length : forall s, is_boundary s (length s) = true.
Proof.
  intros s. rewrite <- (app_nil_r s) at 1. apply is_boundary_app, valid_nil.
Qed.

Lemma is_boundary_le : forall s i, is_boundary s i = true -> (i <= length s)%nat.
Proof.
  intros s i H. destruct i as [| i]; [lia|]. simpl in H.
  destruct s as [| b s]; simpl in *; [lia|].
  destruct (nth_error s i) eqn:E.
  - assert (nth_error s i <> None) by congruence. apply nth_error_Some in H0. lia.
  - lia.
Qed.

(** Rust's byte test finds exactly the positions between characters. *)
Lemma boundary_split : forall cs i,
  Forall is_scalar cs -> is_boundary (encode cs) i = true ->
  exists c1 c2, cs = c1 ++ c2 /\ i = length (encode c1).
Proof.
  induction cs as [| c cs IH]; intros i Hs Hb.
  - pose proof (is_boundary_le _ _ Hb) as Hl. simpl in Hl. exists [], []. split; [reflexivity|]. simpl. lia.
  - inv Hs. destruct (le_lt_dec (length (encode_char c)) i) as [Hge | Hlt].
    + destruct (IH (i - length (encode_char c))%nat) as (c1 & c2 & Heq & Hi); [assumption| |].
      * unfold is_boundary in Hb |- *.
        destruct (i - length (encode_char c))%nat as [| k] eqn:Ek; [reflexivity|].
        destruct i as [| i]; [lia|].
        simpl encode in Hb. rewrite nth_error_app2 in Hb by lia. rewrite Ek in Hb.
        rewrite app_length in Hb.
        destruct (nth_error (encode cs) (S k)); [assumption|]. lia.
      * subst cs. exists (c :: c1), c2. split; [reflexivity|]. simpl. rewrite app_length. lia.
    + destruct i as [| i].
      * exists [], (c :: cs). split; reflexivity.
      * exfalso. unfold is_boundary in Hb. simpl encode in Hb.
        rewrite nth_error_app1 in Hb by assumption.
        destruct (encode_char_head c H1) as (b & t & He & _ & Ht).
        rewrite He in Hb, Hlt. simpl in Hb, Hlt.
        destruct (nth_error t i) eqn:En.
        -- rewrite Forall_forall in Ht. apply nth_error_In in En. apply Ht in En.
           rewrite En in Hb. discriminate.
        -- apply nth_error_None in En. lia.
Qed.

Lemma boundary_of_split : forall c1 c2,
  Forall is_scalar c2 -> is_boundary (encode (c1 ++ c2)) (length (encode c1)) = true.
Proof.
  intros. rewrite encode_app. apply is_boundary_app. now exists c2.
Qed.

Lemma valid_split : forall s i,
  valid s -> is_boundary s i = true -> valid (firstn i s) /\ valid (skipn i s).
Proof.
  intros s i [cs [Hs ->]] Hb.
  destruct (boundary_split cs i Hs Hb) as (c1 & c2 & -> & ->).
  apply Forall_app in Hs. destruct Hs as [H1 H2].
  rewrite encode_app, firstn_app_exact, skipn_app_exact.
  split; [now exists c1 | now exists c2].
Qed.

Lemma valid_skipn_boundary : forall s i,
  (i <= length s)%nat -> valid (skipn i s) -> is_boundary s i = true.
Proof.
  intros s i Hi Hv.
  pose proof (is_boundary_app (firstn i s) (skipn i s) Hv) as H.
  rewrite firstn_skipn, firstn_length_le in H by assumption. exact H.
Qed.

(** Boundaries of a suffix are the boundaries of the whole. *)
Lemma boundary_skipn : forall s i j,
  valid s -> is_boundary s i = true ->
  is_boundary s (i + j) = is_boundary (skipn i s) j.
Proof.
  intros s i j Hv Hi.
  pose proof (is_boundary_le _ _ Hi) as Hle.
  destruct (valid_split s i Hv Hi) as [_ Hv2].
  destruct j as [| j].
  - rewrite Nat.add_0_r. now rewrite Hi.
  - unfold is_boundary at 2. rewrite nth_error_skipn, skipn_length.
    unfold is_boundary. destruct (i + S j)%nat as [| k] eqn:Ek; [lia|].
    rewrite <- Ek. destruct (nth_error s (i + S j)); [reflexivity|]. lia.
Qed.

Lemma boundary_firstn : forall s i j,
  (j < i)%nat -> (i <= length s)%nat ->
  is_boundary (firstn i s) j = is_boundary s j.
Proof.
  intros s i j Hj Hi. unfold is_boundary. destruct j as [| j]; [reflexivity|].
  rewrite nth_error_firstn by assumption.
  destruct (nth_error s (S j)) eqn:E; [reflexivity|].
  apply nth_error_None in E. lia.
Qed.

Lemma substr_length : forall s a b,
  (a <= b)%nat -> (b <= length s)%nat -> length (substr s a b) = (b - a)%nat.
Proof.
  intros. unfold substr. rewrite firstn_length_le; [reflexivity|]. rewrite skipn_length. lia.
Qed.

Lemma valid_substr : forall s a b,
  valid s -> (a <= b)%nat -> is_boundary s a = true -> is_boundary s b = true ->
  valid (substr s a b).
Proof.
  intros s a b Hv Hab Ha Hb. unfold substr.
  destruct (valid_split s a Hv Ha) as [_ H2].
  apply valid_split; [assumption|].
  rewrite <- boundary_skipn by assumption. now replace (a + (b - a))%nat with b by lia.
Qed.

Lemma substr_full : forall s, substr s 0 (length s) = s.
Proof. intros. unfold substr. simpl. rewrite Nat.sub_0_r. apply firstn_all. Qed.

Lemma substr_split : forall s a b c,
  (a <= b)%nat -> (b <= c)%nat -> substr s a c = substr s a b ++ substr s b c.
Proof.
  intros s a b c Hab Hbc. unfold substr.
  rewrite (firstn_skipn_split Z (b - a) (c - a)) by lia.
  rewrite skipn_skipn_add.
  replace (c - a - (b - a))%nat with (c - b)%nat by lia.
  now replace (a + (b - a))%nat with b by lia.
Qed.

Lemma substr_app : forall s a b,
  (a <= b)%nat -> (b <= length s)%nat -> firstn a s ++ substr s a b ++ skipn b s = s.
Proof.
  intros s a b Hab Hb. unfold substr.
  rewrite <- (firstn_skipn a s) at 4. f_equal.
  rewrite <- (firstn_skipn (b - a) (skipn a s)) at 2. f_equal.
  rewrite skipn_skipn_add. f_equal. lia.
Qed.

(** ASCII text is valid. *)
Definition ascii (s : str) : Prop := Forall (fun b => 0 <= b < 128) s.

Lemma encode_ascii : forall s, ascii s -> encode s = s.
Proof.
  induction s as [| b s IH]; intros H; [reflexivity|]. inv H. simpl.
  unfold encode_char. destruct (b <? 128) eqn:E; [|lia]. simpl. f_equal. now apply IH.
Qed.

Lemma valid_ascii : forall s, ascii s -> valid s.
Proof.
  intros s H. exists s. split; [| now rewrite encode_ascii].
  eapply Forall_impl; [| exact H]. intros b Hb. left. simpl in Hb. lia.
Qed.

(** A computable validity test, for closed examples. *)
Definition validb (s : str) : bool :=
  forallb is_scalarb (chars s) &&
  (if list_eq_dec Z.eq_dec (encode (chars s)) s then true else false).

Lemma validb_valid : forall s, validb s = true -> valid s.
Proof.
  intros s H. unfold validb in H. apply andb_prop in H. destruct H as [H1 H2].
  exists (chars s). split.
  - rewrite Forall_forall. rewrite forallb_forall in H1. intros c Hc.
    apply is_scalarb_spec. auto.
  - destruct (list_eq_dec Z.eq_dec (encode (chars s)) s); [auto | discriminate].
Qed.
