(** Lemmas about comment formatting. *)
From Verif Require Import Base Utf8 CommentModel CommentSpec.
From Verif Require DiagModel DiagProofs.
From Coq Require Import Sorting.Sorted.

Lemma trim_start_split s : exists w, s = w ++ trim_start s /\ blank w.
Proof.
  induction s as [| c r (w & E & B)]; cbn [trim_start]; [exists []; split; [reflexivity | intros c []]|].
  destruct (white c) eqn:W; [| exists []; split; [reflexivity | intros x []]].
  exists (c :: w). split; [cbn; now rewrite <- E|]. intros x [-> | I]; [assumption | now apply B].
Qed.
Lemma trim_start_head s c r : trim_start s = c :: r -> white c = false.
Proof.
  induction s as [| x s IH]; cbn [trim_start]; [discriminate|]. destruct (white x) eqn:W; [assumption|]. intros H. now inv H.
Qed.
Lemma blank_rev w : blank w -> blank (rev w).
Proof. intros B c I. apply B. now apply in_rev. Qed.
Lemma blank_app a b : blank (a ++ b) <-> blank a /\ blank b.
Proof.
  unfold blank. split; [intros H; split; intros c I; apply H, in_app_iff; tauto|]. intros [A B] c I. apply in_app_iff in I as [I | I]; auto.
Qed.
Lemma trim_split s : exists w1 w2, s = w1 ++ trim s ++ w2 /\ blank w1 /\ blank w2.
Proof.
  unfold trim. destruct (trim_start_split s) as (w1 & E1 & B1).
  destruct (trim_start_split (rev (trim_start s))) as (w2 & E2 & B2).
  exists w1, (rev w2). split; [| split; [assumption | now apply blank_rev]].
  rewrite <- rev_app_distr, <- E2, rev_involutive. exact E1.
Qed.
Lemma trim_last s x l : trim s = l ++ [x] -> white x = false.
Proof.
  unfold trim. intros H. apply (f_equal (@rev Z)) in H. rewrite rev_involutive, rev_app_distr in H.
  now apply trim_start_head in H.
Qed.
Lemma trim_start_keep s c r : s = c :: r -> white c = false -> trim_start s = s.
Proof. intros -> W. cbn. now rewrite W. Qed.
Lemma trim_first s x l : trim s = x :: l -> white x = false.
Proof.
  intros H. unfold trim in H.
  destruct (trim_start_split (rev (trim_start s))) as (w2 & E2 & B2).
  apply (f_equal (@rev Z)) in E2. rewrite rev_involutive, rev_app_distr, H in E2. cbn [app] in E2.
  now apply (trim_start_head s x (l ++ rev w2)).
Qed.
Lemma trim_start_blank w s : blank w -> trim_start (w ++ s) = trim_start s.
Proof.
  induction w as [| c w IH]; intros B; [reflexivity|]. cbn [app trim_start]. rewrite (B c) by now left.
  apply IH. intros x I. apply B. now right.
Qed.
Lemma trim_start_all w : blank w -> trim_start w = [].
Proof. intros B. rewrite <- (app_nil_r w), trim_start_blank by assumption. reflexivity. Qed.
Lemma trim_blank s : is_empty (trim s) = true <-> blank s.
Proof.
  split.
  - intros E. destruct (trim_split s) as (w1 & w2 & Q & B1 & B2). destruct (trim s); [|discriminate].
    rewrite Q. now apply blank_app.
  - intros B. unfold trim. now rewrite (trim_start_all s) by assumption.
Qed.
Lemma trim_around w1 t w2 : blank w1 -> blank w2 -> t <> [] -> (forall x l, t = x :: l -> white x = false) ->
  (forall x l, t = l ++ [x] -> white x = false) -> trim (w1 ++ t ++ w2) = t.
Proof.
  intros B1 B2 N F L. unfold trim. rewrite trim_start_blank by assumption.
  destruct t as [| x l]; [congruence|]. cbn [app]. rewrite (trim_start_keep (x :: l ++ w2) x (l ++ w2) eq_refl (F x l eq_refl)).
  change (x :: l ++ w2) with ((x :: l) ++ w2). rewrite rev_app_distr, trim_start_blank by now apply blank_rev.
  destruct (rev (x :: l)) as [| y m] eqn:R; [now apply (f_equal (@rev Z)) in R; rewrite rev_involutive in R|].
  assert (E : x :: l = rev m ++ [y]) by (apply (f_equal (@rev Z)) in R; now rewrite rev_involutive in R).
  rewrite (trim_start_keep (y :: m) y m eq_refl (L _ _ E)). now rewrite E.
Qed.
Lemma trim_again s w1 w2 : blank w1 -> blank w2 -> is_empty (trim s) = false -> trim (w1 ++ trim s ++ w2) = trim s.
Proof.
  intros B1 B2 N. apply trim_around; try assumption; [intros E; now rewrite E in N | apply trim_first | intros x l; apply trim_last].
Qed.
Lemma trim_in s c : In c (trim s) -> In c s.
Proof. destruct (trim_split s) as (w1 & w2 & E & _). intros I. rewrite E, !in_app_iff. tauto. Qed.

(** Scanning for the closing marker *)
Fixpoint scan (star : bool) (s : str) : bool :=
  match s with [] => false | c :: r => (star && (c =? 47)%Z) || scan (c =? 42)%Z r end.
Fixpoint after (star : bool) (s : str) : bool := match s with [] => star | c :: r => after (c =? 42)%Z r end.
Lemma scan_app st a b : scan st (a ++ b) = scan st a || scan (after st a) b.
Proof. revert st. induction a as [| c r IH]; intros st; cbn; [reflexivity|]. now rewrite IH, orb_assoc. Qed.
Lemma after_app st a b : after st (a ++ b) = after (after st a) b.
Proof. revert st. induction a as [| c r IH]; intros st; cbn; auto. Qed.
Lemma white_marks c : white c = true -> (c =? 47)%Z = false /\ (c =? 42)%Z = false.
Proof.
  intros W. split; apply Z.eqb_neq; intros ->; now cbn in W.
Qed.
Lemma scan_blank st w : blank w -> scan st w = false.
Proof.
  revert st. induction w as [| c r IH]; intros st B; [reflexivity|]. cbn.
  destruct (white_marks c) as [-> ->]; [now apply B; left|]. rewrite andb_false_r. apply IH. intros x I. apply B. now right.
Qed.
Lemma after_blank w : blank w -> after false w = false.
Proof.
  induction w as [| c r IH]; intros B; [reflexivity|]. cbn. destruct (white_marks c) as [_ ->]; [now apply B; left|].
  apply IH. intros x I. apply B. now right.
Qed.
Lemma scan_white st c r : white c = true -> scan st (c :: r) = scan false r.
Proof. intros W. cbn. destruct (white_marks c W) as [-> ->]. now rewrite andb_false_r. Qed.
Lemma scan_around w1 t w2 : blank w1 -> blank w2 -> scan false (w1 ++ t ++ w2) = scan false t.
Proof.
  intros B1 B2. rewrite !scan_app, (after_blank w1), (scan_blank _ w1), (scan_blank _ w2) by assumption. now rewrite orb_false_r.
Qed.
Lemma scan_trim s : scan false (trim s) = scan false s.
Proof. destruct (trim_split s) as (w1 & w2 & E & B1 & B2). rewrite E at 2. now rewrite scan_around. Qed.
Lemma scan_closes s : closes s <-> scan false s = true.
Proof.
  split.
  - intros (a & b & ->). rewrite scan_app. cbn. rewrite andb_false_r. cbn. now rewrite orb_true_r.
  - assert (G : forall st, scan st s = true -> closes s \/ st = true /\ exists b, s = 47%Z :: b).
    { induction s as [| c r IH]; intros st; cbn; [discriminate|]. intros H. apply orb_true_iff in H as [H | H].
      - apply andb_true_iff in H as [-> E]. apply Z.eqb_eq in E as ->. right. split; eauto.
      - apply IH in H as [(a & b & ->) | (E & b & ->)].
        + left. exists (c :: a), b. reflexivity.
        + apply Z.eqb_eq in E as ->. left. exists [], b. reflexivity. }
    intros H. apply G in H as [H | [H _]]; [assumption | discriminate].
Qed.
Lemma strip_cr_split l : exists w, l = DiagModel.strip_cr l ++ w /\ blank w.
Proof.
  unfold DiagModel.strip_cr. destruct (rev l) as [| c r] eqn:R; [exists []; rewrite app_nil_r; split; [reflexivity | intros x []]|].
  destruct (c =? 13)%Z eqn:E; [| exists []; rewrite app_nil_r; split; [reflexivity | intros x []]].
  apply Z.eqb_eq in E as ->. exists [13%Z]. apply (f_equal (@rev Z)) in R. rewrite rev_involutive in R. split; [exact R|].
  intros x [<- | []]. reflexivity.
Qed.
Lemma scan_lines_from s : forall cur, scan false (rev cur ++ s) = existsb (scan false) (DiagModel.lines_from cur s).
Proof.
  induction s as [| c r IH]; intros cur; cbn [DiagModel.lines_from].
  - rewrite app_nil_r. destruct cur as [| x cur]; [reflexivity|]. cbn [existsb]. now rewrite orb_false_r.
  - destruct (c =? 10)%Z eqn:E.
    + apply Z.eqb_eq in E as ->. rewrite scan_app, (scan_white _ 10 r) by reflexivity. cbn [existsb]. rewrite <- IH. cbn [rev app].
      f_equal. destruct (strip_cr_split (rev cur)) as (w & Q & B). rewrite Q at 1. rewrite scan_app, (scan_blank _ w) by assumption. now rewrite orb_false_r.
    + rewrite <- IH. cbn [rev]. now rewrite <- app_assoc.
Qed.
Lemma scan_lines s : scan false s = existsb (scan false) (DiagModel.lines s).
Proof. apply (scan_lines_from s []). Qed.

Lemma scan_block_line indent line r : blank indent -> scan false (block_line indent line ++ r) = scan false line || scan false r.
Proof.
  intros B. unfold block_line. rewrite <- !app_assoc, scan_app, (scan_blank _ indent), (after_blank indent) by assumption.
  cbn [orb]. change (lit " * ") with [32; 42; 32]%Z. cbn [app scan]. cbn [Z.eqb Pos.eqb andb orb].
  rewrite scan_app, scan_trim. f_equal. now rewrite scan_white.
Qed.
Lemma scan_block_lines indent ls r : blank indent ->
  scan false (concat (map (block_line indent) ls) ++ r) = existsb (scan false) ls || scan false r.
Proof.
  intros B. induction ls as [| l ls IH]; [reflexivity|]. cbn [map concat existsb]. rewrite <- app_assoc, scan_block_line, IH by assumption.
  now rewrite orb_assoc.
Qed.

(** The body that [formatted_text] gives a block comment *)
Definition body (content indent : str) : str :=
  if is_empty (trim content) then content ++ [32%Z]
  else if contains_char 10 content then
    10%Z :: concat (map (block_line indent) (DiagModel.lines content)) ++ indent ++ [32%Z]
  else 32%Z :: trim content ++ [32%Z].
Lemma formatted_block c indent : co_kind c = Block ->
  formatted_text c indent = [47; 42]%Z ++ body (co_content c) indent ++ [42; 47]%Z.
Proof.
  intros K. unfold formatted_text, body. rewrite K. destruct (is_empty _); [|destruct (contains_char _ _)].
  - cbn [prefix suffix]. change (lit "/*") with [47; 42]%Z. change (lit " */") with [32; 42; 47]%Z. now rewrite <- app_assoc.
  - change (lit "/*") with [47; 42]%Z. change (lit " */") with [32; 42; 47]%Z. cbn [app]. do 3 f_equal. now rewrite <- !app_assoc.
  - change (lit "/* ") with [47; 42; 32]%Z. change (lit " */") with [32; 42; 47]%Z. cbn [app]. do 3 f_equal. now rewrite <- app_assoc.
Qed.
Lemma scan_body content indent : blank indent -> scan false (body content indent ++ [42%Z]) = scan false content.
Proof.
  intros B. unfold body. destruct (is_empty (trim content)) eqn:E; [|destruct (contains_char 10 content)].
  - apply trim_blank in E. rewrite <- app_assoc, scan_app, (after_blank _ E), (scan_blank _ content) by assumption. reflexivity.
  - cbn [app]. rewrite scan_white by reflexivity. rewrite <- !app_assoc, scan_block_lines, <- scan_lines by assumption.
    rewrite scan_app, (scan_blank _ indent), (after_blank indent) by assumption. cbn. now rewrite orb_false_r.
  - cbn [app]. rewrite scan_white by reflexivity. rewrite <- app_assoc, scan_app, scan_trim.
    cbn [app]. rewrite scan_white by reflexivity. cbn. now rewrite orb_false_r.
Qed.
Lemma block_one c indent : co_kind c = Block -> blank indent ->
  (one_comment Block (formatted_text c indent) <-> ~ closes (co_content c)).
Proof.
  intros K B. rewrite scan_closes, <- (scan_body _ indent B), <- scan_closes, (formatted_block _ _ K). cbn [one_comment].
  split; [| intros N; eexists; split; [reflexivity | exact N]].
  intros (b & E & N). apply app_inv_head in E. apply app_inv_tail in E. now rewrite E.
Qed.

(** Line comments *)
Lemma app_once (c : Z) (w t w2 a b : str) : w ++ t ++ w2 = a ++ c :: b -> ~ In c t ->
  (exists m, w = a ++ c :: m) \/ (exists m, w2 = m ++ c :: b /\ a = w ++ t ++ m).
Proof.
  intros E N. revert a E. induction w as [| x w IH]; intros a E.
  - cbn [app] in *. right. revert a E. induction t as [| y t IHt]; intros a E; [exists a; split; [exact E | reflexivity]|].
    destruct a as [| z a]; cbn [app] in E; [inv E; elim N; now left|]. inv E.
    destruct (IHt (fun I => N (or_intror I)) a H1) as (m & -> & ->). exists m. split; reflexivity.
  - destruct a as [| z a]; cbn [app] in E; inv E; [left; exists w; reflexivity|].
    destruct (IH a H1) as [(m & ->) | (m & -> & ->)]; [left; exists m; reflexivity | right; exists m; split; reflexivity].
Qed.
Lemma unwritable_line content : ~ In 10%Z (if is_empty (trim content) then content else trim content) <->
  ~ (exists a b, content = a ++ 10%Z :: b /\ (blank content \/ (~ blank a /\ ~ blank b))).
Proof.
  destruct (is_empty (trim content)) eqn:E.
  - apply trim_blank in E. split; intros N H; apply N.
    + destruct H as (a & b & -> & _). apply in_app_iff. right. now left.
    + apply in_split in H as (a & b & ->). exists a, b. split; [reflexivity | now left].
  - assert (NB : ~ blank content) by (intros B; apply trim_blank in B; congruence).
    destruct (trim_split content) as (w1 & w2 & S & B1 & B2).
    split; intros N H; apply N.
    + destruct H as (a & b & Q & [B | [Na Nb]]); [contradiction|].
      destruct (in_dec Z.eq_dec 10%Z (trim content)) as [I | I]; [assumption|]. exfalso.
      rewrite S in Q. apply app_once in Q as [(m & ->) | (m & -> & ->)]; [| | assumption].
      * apply Na. now apply blank_app in B1.
      * apply Nb. apply blank_app in B2 as [_ B2]. intros x Ix. apply B2. now right.
    + apply in_split in H as (a & b & Q). exists (w1 ++ a), (b ++ w2). rewrite Q in S. split.
      * rewrite S at 1. rewrite <- !app_assoc. reflexivity.
      * right. split; intros B; apply blank_app in B as [X Y].
        -- destruct a as [| x a]; [now apply trim_first in Q|]. apply (trim_first content x (a ++ 10%Z :: b)) in Q.
           rewrite Y in Q; [discriminate | now left].
        -- destruct (exists_last (l := 10%Z :: b) ltac:(discriminate)) as (l & x & Z). rewrite Z, app_assoc in Q. pose proof (trim_last _ _ _ Q) as W.
           destruct b as [| y b]; [destruct l as [| z l]; cbn in Z; [inv Z; discriminate | destruct l; discriminate]|].
           destruct l as [| z l]; cbn [app] in Z; [discriminate|]. inv Z. rewrite X in W; [discriminate|].
           rewrite H1. apply in_app_iff. right. now left.
Qed.
Definition line_body (content : str) : str := if is_empty (trim content) then content else 32%Z :: trim content.
Lemma line_text c indent : co_kind c <> Block -> formatted_text c indent = prefix (co_kind c) ++ line_body (co_content c).
Proof.
  intros K. unfold formatted_text, line_body. destruct (is_empty _); destruct (co_kind c); try congruence; cbn [suffix]; now rewrite ?app_nil_r.
Qed.
Lemma line_one c indent : co_kind c <> Block -> (one_comment (co_kind c) (formatted_text c indent) <-> ~ unwritable (co_kind c) (co_content c)).
Proof.
  intros K. rewrite line_text by assumption.
  assert (U : unwritable (co_kind c) (co_content c) <-> exists a b, co_content c = a ++ 10%Z :: b /\ (blank (co_content c) \/ (~ blank a /\ ~ blank b)))
    by (destruct (co_kind c); [tauto | congruence | tauto]).
  rewrite U, <- unwritable_line. set (B := line_body (co_content c)).
  assert (I : In 10%Z B <-> In 10%Z (if is_empty (trim (co_content c)) then co_content c else trim (co_content c))).
  { unfold B, line_body. destruct (is_empty _); [tauto|]. cbn. split; [intros [H | H]; [discriminate | assumption] | tauto]. }
  rewrite <- I. clearbody B. destruct (co_kind c); [| congruence |]; cbn [one_comment prefix]; (split; [intros (b & E & N) | intros N; exists B; split; [reflexivity | assumption]]).
  - change (lit "//") with [47; 47]%Z in E. apply app_inv_head in E. now subst b.
  - change (lit "///") with [47; 47; 47]%Z in E. apply app_inv_head in E. now subst b.
Qed.
Lemma one_iff c indent : blank indent -> (one_comment (co_kind c) (formatted_text c indent) <-> ~ unwritable (co_kind c) (co_content c)).
Proof.
  intros B. destruct (co_kind c) eqn:K; try (rewrite <- K; apply line_one; congruence).
  apply block_one; assumption.
Qed.

(** What is kept *)
Lemma ink_app a b : ink (a ++ b) = ink a ++ ink b.
Proof. apply filter_app. Qed.
Lemma ink_blank w : blank w -> ink w = [].
Proof.
  induction w as [| c r IH]; intros B; [reflexivity|]. cbn. rewrite (B c) by now left. cbn. apply IH. intros x I. apply B. now right.
Qed.
Lemma ink_trim s : ink (trim s) = ink s.
Proof.
  destruct (trim_split s) as (w1 & w2 & E & B1 & B2). rewrite E at 2. rewrite !ink_app, (ink_blank w1), (ink_blank w2) by assumption. now rewrite app_nil_r.
Qed.
Lemma ink_lines indent ls : blank indent ->
  ink (concat (map (block_line indent) ls)) = concat (map (fun l => 42%Z :: ink l) ls).
Proof.
  intros B. induction ls as [| l ls IH]; [reflexivity|]. cbn [map concat]. rewrite ink_app, IH. f_equal.
  unfold block_line. rewrite !ink_app, ink_blank, ink_trim by assumption. cbn. now rewrite app_nil_r.
Qed.
Definition gutters (content : str) : str :=
  concat (map (fun l => 42%Z :: ink l) (DiagModel.lines content)).
Lemma kept c indent : blank indent -> ink (formatted_text c indent) =
  match co_kind c with
  | Line => [47; 47]%Z ++ ink (co_content c)
  | Doc => [47; 47; 47]%Z ++ ink (co_content c)
  | Block => [47; 42]%Z ++ (if contains_char 10 (co_content c) && negb (is_empty (ink (co_content c)))
                            then gutters (co_content c) else ink (co_content c)) ++ [42; 47]%Z
  end.
Proof.
  intros B.
  assert (G : co_kind c <> Block -> ink (formatted_text c indent) = ink (prefix (co_kind c)) ++ ink (co_content c)).
  { intros K. rewrite line_text, ink_app by assumption. f_equal. unfold line_body. destruct (is_empty _); [reflexivity|]. cbn. apply ink_trim. }
  destruct (co_kind c) eqn:K; [rewrite G by congruence; reflexivity | | rewrite G by congruence; reflexivity].
  rewrite formatted_block, !ink_app by assumption. change (ink [47; 42]%Z) with [47; 42]%Z. change (ink [42; 47]%Z) with [42; 47]%Z.
  do 2 f_equal. unfold body. destruct (is_empty (trim (co_content c))) eqn:E.
  - apply trim_blank in E. rewrite ink_app, (ink_blank _ E). cbn. now rewrite andb_false_r.
  - assert (Q : is_empty (ink (co_content c)) = false).
    { destruct (trim (co_content c)) as [| x l] eqn:T; [discriminate|]. rewrite <- ink_trim, T. cbn. now rewrite (trim_first _ _ _ T). }
    rewrite Q, andb_true_r. destruct (contains_char _ _).
    + change (10%Z :: ?x) with ([10%Z] ++ x). rewrite !ink_app, ink_lines, (ink_blank indent) by assumption. cbn. now rewrite app_nil_r.
    + change (32%Z :: ?x) with ([32%Z] ++ x). rewrite !ink_app, ink_trim. cbn. now rewrite app_nil_r.
Qed.

(** Formatting again *)
Lemma lines_no_feed s : forall cur l, ~ In 10%Z cur -> In l (DiagModel.lines_from cur s) -> ~ In 10%Z l.
Proof.
  induction s as [| c r IH]; intros cur l N I; cbn [DiagModel.lines_from] in I.
  - destruct cur as [| x cur]; [destruct I|]. destruct I as [<- | []]. intros H. apply N. now apply in_rev.
  - destruct (c =? 10)%Z eqn:E.
    + destruct I as [<- | I]; [| now apply (IH [] l)].
      destruct (strip_cr_split (rev cur)) as (w & Q & _). intros H. apply N. apply in_rev. rewrite Q. apply in_app_iff. now left.
    + apply (IH (c :: cur) l); [| assumption]. intros [-> | H]; [discriminate | contradiction].
Qed.
Lemma lines_from_count s : forall cur, length (DiagModel.lines_from cur s) =
  count_occ Z.eq_dec s 10%Z + match rev s with [] => (match cur with [] => 0 | _ => 1 end) | x :: _ => if (x =? 10)%Z then 0 else 1 end.
Proof.
  induction s as [| c r IH]; intros cur; cbn [DiagModel.lines_from]; [now destruct cur|].
  cbn [rev count_occ]. destruct (c =? 10)%Z eqn:E.
  - apply Z.eqb_eq in E as ->. destruct (Z.eq_dec 10 10); [|congruence]. cbn [length]. rewrite IH.
    destruct (rev r); reflexivity.
  - apply Z.eqb_neq in E. destruct (Z.eq_dec c 10); [congruence|]. rewrite IH. destruct (rev r) eqn:R; cbn [app]; [| reflexivity].
    apply Z.eqb_neq in E. now rewrite E.
Qed.
Lemma count_block_lines indent ls : ~ In 10%Z indent -> (forall l, In l ls -> ~ In 10%Z l) ->
  count_occ Z.eq_dec (concat (map (block_line indent) ls)) 10%Z = length ls.
Proof.
  intros N H. induction ls as [| l ls IH]; [reflexivity|]. cbn [map concat length]. rewrite count_occ_app, IH by (intros x I; apply H; now right).
  unfold block_line. rewrite !count_occ_app. apply (count_occ_not_In Z.eq_dec) in N. rewrite N.
  assert (T : count_occ Z.eq_dec (trim l) 10%Z = 0) by (apply count_occ_not_In; intros I; apply trim_in in I; revert I; apply H; now left).
  rewrite T. reflexivity.
Qed.
Definition feeds (s : str) : nat := count_occ Z.eq_dec s 10%Z.
Lemma body_feeds content indent : is_empty (trim content) = false -> contains_char 10 content = true -> ~ In 10%Z indent ->
  feeds (body content indent) = S (length (DiagModel.lines content)).
Proof.
  intros E C N. unfold body, feeds. rewrite E, C. cbn [count_occ]. destruct (Z.eq_dec 10 10); [|congruence]. f_equal.
  rewrite !count_occ_app, count_block_lines; [| assumption | intros l; apply lines_no_feed; intros []].
  apply (count_occ_not_In Z.eq_dec) in N. rewrite N. change (count_occ Z.eq_dec [32%Z] 10%Z) with 0. rewrite !Nat.add_0_r. reflexivity.
Qed.
Lemma has_feed s : contains_char 10 s = true <-> In 10%Z s.
Proof.
  unfold contains_char. rewrite existsb_exists. split; [intros (x & I & E); apply Z.eqb_eq in E as <-; assumption | intros I; exists 10%Z; now split].
Qed.
Lemma body_twice content indent : is_empty (trim content) = false -> contains_char 10 content = true -> blank indent -> ~ In 10%Z indent ->
  feeds (body (body content indent) indent) = feeds (body content indent) + 2.
Proof.
  intros E C B N. set (b := body content indent).
  assert (Cb : contains_char 10 b = true) by (apply has_feed; unfold b, body; rewrite E, C; now left).
  assert (Eb : is_empty (trim b) = false).
  { destruct (is_empty (trim b)) eqn:Q; [|reflexivity]. apply trim_blank in Q. exfalso. unfold b, body in Q. rewrite E, C in Q.
    assert (L : DiagModel.lines content <> []).
    { intros Z. apply (f_equal (@length _)) in Z. unfold DiagModel.lines in Z. rewrite lines_from_count in Z. cbn [length] in Z.
      apply Nat.eq_add_0 in Z as [Z _]. apply has_feed in C. apply (count_occ_not_In Z.eq_dec) in Z. contradiction. }
    destruct (DiagModel.lines content) as [| l ls]; [congruence|].
    assert (W : white 42 = true) by (apply Q; right; cbn [map concat]; unfold block_line; rewrite !in_app_iff; do 2 left; right; left; right; left; reflexivity).
    discriminate. }
  rewrite (body_feeds b indent Eb Cb N). unfold DiagModel.lines. rewrite lines_from_count. fold (feeds b).
  assert (R : exists r, rev b = 32%Z :: r).
  { unfold b, body. rewrite E, C. cbn [rev]. rewrite !rev_app_distr. cbn. eauto. }
  destruct R as (r & ->). cbn. lia.
Qed.

(** Writing comments at positions *)
Lemma push_out cs indent out : push_comments cs indent out = out ++ concat (map (entry indent) (filter (fun c => negb (co_trailing c)) cs)).
Proof.
  revert out. induction cs as [| c cs IH]; intros out; cbn [push_comments filter]; [cbn; now rewrite app_nil_r|].
  rewrite IH. destruct (negb (co_trailing c)); [| reflexivity]. cbn [map concat]. unfold entry at 2. now rewrite <- !app_assoc.
Qed.
Lemma count_filter (f : comment -> bool) cs c : count_occ comment_eq (filter f cs) c = if f c then count_occ comment_eq cs c else 0.
Proof.
  induction cs as [| d cs IH]; cbn [filter count_occ]; [now destruct (f c)|].
  destruct (f d) eqn:F; cbn [count_occ]; destruct (comment_eq d c) as [-> | N]; rewrite IH; try rewrite F; reflexivity.
Qed.
Lemma walk p indent ps : forall out, exists l,
  fold_left (fun o at_ => insert_comments_at_position p o at_ indent) ps out = out ++ concat (map (entry indent) l) /\
  forall c, count_occ comment_eq l c = if co_trailing c then 0 else count_occ comment_eq (pr_comments p) c * passed c ps.
Proof.
  induction ps as [| a ps IH]; intros out.
  - exists []. cbn. rewrite app_nil_r. split; [reflexivity|]. intros c. destruct (co_trailing c); unfold passed; cbn; lia.
  - cbn [fold_left]. unfold insert_comments_at_position at 2. rewrite push_out.
    destruct (IH (out ++ concat (map (entry indent) (filter (fun c => negb (co_trailing c)) (comments_before (pr_comments p) a))))) as (l & E & Q).
    eexists. split; [rewrite E, <- app_assoc, <- concat_app, <- map_app; reflexivity|]. intros c. rewrite count_occ_app, Q.
    unfold comments_before. rewrite !count_filter. unfold passed. cbn [filter].
    destruct (co_trailing c); cbn [negb]; [reflexivity|]. destruct (_ <=? _); cbn [length]; lia.
Qed.

(** Sorting *)
Lemma insert_perm c l : Permutation (insert_comment c l) (c :: l).
Proof.
  induction l as [| x l IH]; cbn; [reflexivity|]. destruct (_ <=? _); [reflexivity|]. rewrite IH. apply perm_swap.
Qed.
Lemma sort_perm l : Permutation (sort_by_position l) l.
Proof. induction l as [| c l IH]; cbn; [reflexivity|]. rewrite insert_perm. now constructor. Qed.
Lemma insert_sorted c l : StronglySorted (fun a b => start_of a <= start_of b) l -> StronglySorted (fun a b => start_of a <= start_of b) (insert_comment c l).
Proof.
  induction l as [| x l IH]; intros S; cbn; [repeat constructor|]. inversion S as [| ? ? S' F]; subst.
  destruct (start_of c <=? start_of x) eqn:E.
  - apply Nat.leb_le in E. constructor; [assumption|]. constructor; [assumption|]. eapply Forall_impl; [|exact F]. cbn. intros; lia.
  - apply Nat.leb_gt in E. constructor; [now apply IH|]. apply Forall_forall. intros y I. apply (Permutation_in _ (insert_perm c l)) in I as [<- | I]; [lia|].
    rewrite Forall_forall in F. now apply F.
Qed.
Lemma sort_sorted l : StronglySorted (fun a b => start_of a <= start_of b) (sort_by_position l).
Proof. induction l as [| c l IH]; cbn; [constructor|]. now apply insert_sorted. Qed.
Lemma insert_filter o c l : filter (fun d => start_of d =? o) (insert_comment c l) =
  if start_of c =? o then c :: filter (fun d => start_of d =? o) l else filter (fun d => start_of d =? o) l.
Proof.
  induction l as [| x l IH]; cbn [insert_comment filter]; [now destruct (_ =? _)|].
  destruct (start_of c <=? start_of x) eqn:E; cbn [filter]; [reflexivity|]. rewrite IH. apply Nat.leb_gt in E.
  destruct (start_of x =? o) eqn:X; [| reflexivity]. destruct (start_of c =? o) eqn:C; [| reflexivity].
  apply Nat.eqb_eq in X, C. lia.
Qed.
Lemma sort_stable_filter o l : filter (fun d => start_of d =? o) (sort_by_position l) = filter (fun d => start_of d =? o) l.
Proof. induction l as [| c l IH]; cbn [sort_by_position filter]; [reflexivity|]. now rewrite insert_filter, IH. Qed.

(** Trailing comments *)
Lemma push_trailing_find cs out : push_trailing cs out =
  match find co_trailing cs with Some c => out ++ lit " " ++ formatted_text c [] | None => out end.
Proof. induction cs as [| c cs IH]; cbn; [reflexivity|]. destruct (co_trailing c); [reflexivity | exact IH]. Qed.
Lemma find_sorted p cs c : StronglySorted (fun a b => start_of a <= start_of b) cs ->
  find co_trailing (comments_after cs p) = Some c -> nearest cs p c.
Proof.
  induction cs as [| d cs IH]; cbn [comments_after filter]; [discriminate|]. intros S F. inversion S as [| ? ? S' Fa]; subst.
  rewrite Forall_forall in Fa. fold (start_of d) in F. destruct (po_offset p <=? start_of d) eqn:E; [destruct (co_trailing d) eqn:T|].
  - cbn [find] in F. rewrite T in F. inv F. apply Nat.leb_le in E. split; [now left|]. split; [assumption|]. split; [assumption|].
    intros x [-> | I] _ _; [lia | now apply Fa].
  - cbn [find] in F. rewrite T in F. destruct (IH S' F) as (I & T' & O & M). split; [now right|]. split; [assumption|]. split; [assumption|].
    intros x [<- | Ix] Tx Ox; [congruence | now apply M].
  - destruct (IH S' F) as (I & T' & O & M). apply Nat.leb_gt in E. split; [now right|]. split; [assumption|]. split; [assumption|].
    intros x [<- | Ix] Tx Ox; [lia | now apply M].
Qed.
Lemma find_no_trailing p cs : find co_trailing (comments_after cs p) = None -> forall d, In d cs -> co_trailing d = true -> ~ po_offset p <= start_of d.
Proof.
  intros F d I T O. enough (X : co_trailing d = false) by congruence. apply (find_none _ _ F d). unfold comments_after. apply filter_In. split; [assumption|]. now apply Nat.leb_le.
Qed.
