(** Properties of comment formatting. *)
From Verif Require Import Base Utf8 CommentModel CommentSpec CommentProofs.
From Verif Require DiagModel.
From Coq Require Import Sorting.Sorted.

Definition origin : position := Position 0 0 0.
Definition at_off (n : nat) : position := Position 0 n n.
Definition plain (k : kind) (content : str) : comment := new_comment k content (Span origin origin).
Definition placed (trailing : bool) (content : str) (a b : nat) : comment :=
  with_trailing (new_comment Line content (Span (at_off a) (at_off b))) trailing.

(** ** C121: a formatted comment is one comment *)

(** The text written for a comment is one comment of its kind exactly if the content has no line feed that trimming
    leaves (line and documentation comments) and no closing marker (block comments). *)
Theorem formatted_one_comment_partial : forall c indent, blank indent ->
  (one_comment (co_kind c) (formatted_text c indent) <-> ~ unwritable (co_kind c) (co_content c)).
Proof. exact one_iff. Qed.
Print Assumptions formatted_one_comment_partial.

(** Not for all contents: the rest of a line comment, or of a block comment, becomes code. *)
Theorem formatted_one_comment_refuted : forall k, exists c, co_kind c = k /\ ~ one_comment k (formatted_text c []).
Proof.
  intros k. exists (plain k (match k with Block => lit "a*/b" | _ => lit "a" ++ [10%Z] ++ lit "b" end)). split; [reflexivity|].
  intros H. revert H. change k with (co_kind (plain k (match k with Block => lit "a*/b" | _ => lit "a" ++ [10%Z] ++ lit "b" end))) at 1.
  rewrite formatted_one_comment_partial by (intros x []). intros N. apply N. destruct k; cbn.
  - exists [97%Z], [98%Z]. split; [reflexivity|]. right. split; intros B.
    + specialize (B 97%Z (or_introl eq_refl)). discriminate.
    + specialize (B 98%Z (or_introl eq_refl)). discriminate.
  - exists [97%Z], [98%Z]. reflexivity.
  - exists [97%Z], [98%Z]. split; [reflexivity|]. right. split; intros B.
    + specialize (B 97%Z (or_introl eq_refl)). discriminate.
    + specialize (B 98%Z (or_introl eq_refl)). discriminate.
Qed.
Print Assumptions formatted_one_comment_refuted.

(** Everything but white space is kept, in order, between the markers; a block comment of several lines gets one
    star before each line. *)
Theorem formatted_text_kept : forall c indent, blank indent -> ink (formatted_text c indent) =
  match co_kind c with
  | Line => lit "//" ++ ink (co_content c)
  | Doc => lit "///" ++ ink (co_content c)
  | Block => lit "/*" ++
      (if in_dec Z.eq_dec 10%Z (co_content c) then
         match ink (co_content c) with
         | [] => []
         | _ => concat (map (fun l => lit "*" ++ ink l) (DiagModel.lines (co_content c)))
         end
       else ink (co_content c)) ++ lit "*/"
  end.
Proof.
  intros c indent B. rewrite kept by assumption. destruct (co_kind c); try reflexivity.
  change (lit "/*") with [47; 42]%Z. change (lit "*/") with [42; 47]%Z. f_equal. f_equal.
  destruct (in_dec Z.eq_dec 10%Z (co_content c)) as [I | I].
  - apply has_feed in I. rewrite I. destruct (ink (co_content c)); reflexivity.
  - destruct (contains_char 10 (co_content c)) eqn:E; [apply has_feed in E; contradiction | reflexivity].
Qed.
Print Assumptions formatted_text_kept.

Example ex_formatted :
  formatted_text (plain Line (lit "  note ")) [] = lit "// note" /\
  formatted_text (plain Block (lit " a" ++ [10%Z] ++ lit "b ")) (lit "  ") =
    lit "/*" ++ [10%Z] ++ lit "   * a" ++ [10%Z] ++ lit "   * b" ++ [10%Z] ++ lit "   */" /\
  ~ unwritable Block (lit " a" ++ [10%Z] ++ lit "b ").
Proof. split; [reflexivity|]. split; [reflexivity|]. cbn [unwritable]. rewrite scan_closes. discriminate. Qed.

(** ** C122: formatting a comment again *)

(** Read back and formatted again, the text is the same exactly if the comment is not a block comment that is blank
    or has several lines. *)
Theorem reformat_stable_partial : forall c indent content, blank indent -> ~ In 10%Z indent ->
  content_of (co_kind c) (formatted_text c indent) content ->
  (formatted_text (plain (co_kind c) content) indent = formatted_text c indent <->
   ~ (co_kind c = Block /\ (blank (co_content c) \/ In 10%Z (co_content c)))).
Proof.
  intros c indent content B N R. destruct (co_kind c) eqn:K.
  1, 3: (split; [intros _ [H _]; discriminate|]; intros _; rewrite !line_text by (rewrite ?K; discriminate);
    rewrite line_text in R by (rewrite K; discriminate); rewrite K in *; cbn [content_of prefix co_kind plain new_comment co_content] in *;
    first [apply (app_inv_head [47; 47; 47]%Z) in R | apply (app_inv_head [47; 47]%Z) in R]; subst content; f_equal;
    unfold line_body; destruct (is_empty (trim (co_content c))) eqn:E; [now rewrite E|];
    assert (T : trim (32%Z :: trim (co_content c)) = trim (co_content c))
      by (pose proof (trim_again (co_content c) [32%Z] []) as T; rewrite app_nil_r in T; apply T; [intros x [<- | []]; reflexivity | intros x [] | assumption]);
    rewrite T, E; reflexivity).
  rewrite (formatted_block c) in * by assumption. rewrite formatted_block by reflexivity. cbn [plain new_comment co_content].
  cbn [content_of] in R. apply app_inv_head in R. apply app_inv_tail in R. subst content.
  assert (Q : forall a b : str, [47; 42]%Z ++ a ++ [42; 47]%Z = [47; 42]%Z ++ b ++ [42; 47]%Z <-> a = b).
  { intros a b. split; [| now intros ->]. intros H. apply app_inv_head in H. now apply app_inv_tail in H. }
  rewrite Q. clear Q. destruct (is_empty (trim (co_content c))) eqn:E; [| destruct (contains_char 10 (co_content c)) eqn:C].
  - assert (X : body (co_content c) indent = co_content c ++ [32%Z]) by (unfold body; now rewrite E).
    apply trim_blank in E. assert (E' : is_empty (trim (co_content c ++ [32%Z])) = true).
    { apply trim_blank, blank_app. split; [assumption | intros x [<- | []]; reflexivity]. }
    rewrite X. unfold body. rewrite E'. split; [| intros H; elim H; split; [reflexivity | now left]].
    intros H. apply (f_equal (@length Z)) in H. rewrite !app_length in H. cbn in H. lia.
  - split.
    + intros H. apply (f_equal feeds) in H. rewrite body_twice in H by assumption. lia.
    + intros H. elim H. split; [reflexivity|]. right. now apply has_feed.
  - assert (X : body (co_content c) indent = 32%Z :: trim (co_content c) ++ [32%Z]) by (unfold body; now rewrite E, C).
    rewrite X. split.
    + intros _ [_ [H | H]]; [apply trim_blank in H; congruence | apply has_feed in H; congruence].
    + intros _. unfold body. change (32%Z :: trim (co_content c) ++ [32%Z]) with ([32%Z] ++ trim (co_content c) ++ [32%Z]).
      rewrite (trim_again (co_content c) [32%Z] [32%Z]); [| intros x [<- | []]; reflexivity | intros x [<- | []]; reflexivity | assumption].
      rewrite E. destruct (contains_char 10 ([32%Z] ++ trim (co_content c) ++ [32%Z])) eqn:D; [| reflexivity].
      apply has_feed in D. rewrite !in_app_iff in D. destruct D as [[D | []] | [D | [D | []]]]; try discriminate.
      apply trim_in, has_feed in D. congruence.
Qed.
Print Assumptions reformat_stable_partial.

(** A block comment of several lines gets two lines longer each time. *)
Theorem reformat_grows : forall c indent content, co_kind c = Block -> ~ blank (co_content c) -> In 10%Z (co_content c) ->
  blank indent -> ~ In 10%Z indent -> content_of Block (formatted_text c indent) content ->
  count_occ Z.eq_dec (formatted_text (plain Block content) indent) 10%Z = count_occ Z.eq_dec (formatted_text c indent) 10%Z + 2.
Proof.
  intros c indent content K Nb I B N R. rewrite (formatted_block c) in * by assumption. rewrite formatted_block by reflexivity. cbn [plain new_comment co_content].
  cbn [content_of] in R. apply app_inv_head in R. apply app_inv_tail in R. subst content.
  rewrite !count_occ_app. change (count_occ Z.eq_dec [47; 42]%Z 10%Z) with 0. change (count_occ Z.eq_dec [42; 47]%Z 10%Z) with 0.
  rewrite !Nat.add_0_r. apply body_twice; try assumption; [| now apply has_feed].
  destruct (is_empty _) eqn:E; [| reflexivity]. apply trim_blank in E. contradiction.
Qed.
Print Assumptions reformat_grows.

Theorem reformat_stable_refuted : exists c content,
  content_of (co_kind c) (formatted_text c []) content /\ formatted_text (plain (co_kind c) content) [] <> formatted_text c [].
Proof.
  exists (plain Block (lit "a" ++ [10%Z] ++ lit "b")), ([10%Z] ++ lit " * a" ++ [10%Z] ++ lit " * b" ++ [10%Z] ++ lit " ").
  split; [reflexivity | discriminate].
Qed.
Print Assumptions reformat_stable_refuted.

Example ex_reformat :
  content_of Line (formatted_text (plain Line (lit " x")) []) (lit " x") /\
  formatted_text (plain Block ([10%Z] ++ lit " * a" ++ [10%Z] ++ lit " * b" ++ [10%Z] ++ lit " ")) [] =
    lit "/*" ++ [10%Z] ++ lit " * " ++ [10%Z] ++ lit " * * a" ++ [10%Z] ++ lit " * * b" ++ [10%Z] ++ lit " * " ++ [10%Z] ++ lit " */".
Proof. split; reflexivity. Qed.

(** ** C123: each comment is written once *)

(** A walk over positions that inserts the comments due at each: a comment that is not trailing is written as often
    as there are positions at or after its end; trailing comments never. *)
Theorem comments_written_exact : forall p indent ps, exists l,
  fold_left (fun o at_ => insert_comments_at_position p o at_ indent) ps [] = concat (map (entry indent) l) /\
  forall c, count_occ comment_eq l c = if co_trailing c then 0 else count_occ comment_eq (pr_comments p) c * passed c ps.
Proof. intros. apply walk. Qed.
Print Assumptions comments_written_exact.

(** So each is written once if only one position follows it. *)
Theorem comments_once_partial : forall p indent ps,
  (forall c, In c (pr_comments p) -> passed c ps = 1) -> exists l,
  fold_left (fun o at_ => insert_comments_at_position p o at_ indent) ps [] = concat (map (entry indent) l) /\
  Permutation l (filter (fun c => negb (co_trailing c)) (pr_comments p)).
Proof.
  intros p indent ps H. destruct (comments_written_exact p indent ps) as (l & E & C). exists l. split; [assumption|].
  apply (Permutation_count_occ comment_eq). intros c. rewrite C, count_filter. destruct (co_trailing c); cbn [negb]; [reflexivity|].
  destruct (in_dec comment_eq c (pr_comments p)) as [I | I]; [rewrite H by assumption; lia|].
  apply (count_occ_not_In comment_eq) in I. rewrite I. reflexivity.
Qed.
Print Assumptions comments_once_partial.

(** At a second, later position the comments of the first are written again. *)
Theorem comments_once_refuted : exists p a b, po_offset a < po_offset b /\ length (pr_comments p) = 1 /\
  insert_comments_at_position p (insert_comments_at_position p [] a []) b [] =
  lit "// x" ++ [10%Z] ++ lit "// x" ++ [10%Z].
Proof.
  exists (Processor [placed false (lit "x") 0 4] true true), (at_off 4), (at_off 9). split; [cbn; lia|]. split; reflexivity.
Qed.
Print Assumptions comments_once_refuted.

Example ex_once : exists ps, length ps = 2 /\
  forall c, In c [placed false (lit "x") 3 5; placed true (lit "y") 4 6] -> passed c ps = 1.
Proof. exists [at_off 1; at_off 8]. split; [reflexivity|]. intros c [<- | [<- | []]]; reflexivity. Qed.

(** ** C124: the trailing comment of a line *)

(** In a sorted collection the comment inserted is the nearest one after the position. *)
Theorem trailing_nearest_partial : forall cs preserve fmt out at_,
  (exists c, nearest cs at_ c /\
     insert_trailing_comment (Processor (sort_by_position cs) preserve fmt) out at_ = out ++ lit " " ++ formatted_text c []) \/
  ((forall d, In d cs -> co_trailing d = true -> start_of d < po_offset at_) /\
     insert_trailing_comment (Processor (sort_by_position cs) preserve fmt) out at_ = out).
Proof.
  intros cs preserve fmt out at_. unfold insert_trailing_comment. cbn [pr_comments]. rewrite push_trailing_find.
  destruct (find co_trailing (comments_after (sort_by_position cs) at_)) as [c |] eqn:F; [left | right].
  - exists c. split; [| reflexivity]. apply find_sorted in F; [| apply sort_sorted]. destruct F as (I & T & O & M).
    split; [now apply (Permutation_in _ (sort_perm cs))|]. split; [assumption|]. split; [assumption|].
    intros d Id. apply M. apply (Permutation_in _ (Permutation_sym (sort_perm cs))), Id.
  - split; [| reflexivity]. intros d I T. apply Nat.lt_nge. apply (find_no_trailing _ _ F); [| assumption].
    now apply (Permutation_in _ (Permutation_sym (sort_perm cs))).
Qed.
Print Assumptions trailing_nearest_partial.

(** In an unsorted one it need not be. *)
Theorem trailing_nearest_refuted : exists cs at_ c, nearest cs at_ c /\
  insert_trailing_comment (Processor cs true true) [] at_ <> lit " " ++ formatted_text c [].
Proof.
  exists [placed true (lit "far") 50 53; placed true (lit "near") 10 14], (at_off 8), (placed true (lit "near") 10 14).
  split; [| discriminate]. split; [cbn; tauto|]. split; [reflexivity|]. split; [cbn; lia|].
  intros d [<- | [<- | []]] _ _; cbn; lia.
Qed.
Print Assumptions trailing_nearest_refuted.

(** And even in a sorted one, a line without a trailing comment gets the one of a later line. *)
Theorem trailing_line_refuted : exists c at_, po_line at_ < po_line (sp_start (co_span c)) /\
  insert_trailing_comment (Processor (sort_by_position [c]) true true) [] at_ = lit " " ++ formatted_text c [].
Proof.
  exists (with_trailing (new_comment Line (lit "x") (Span (Position 7 4 90) (Position 7 8 94))) true), (Position 2 9 30).
  split; [cbn; lia | reflexivity].
Qed.
Print Assumptions trailing_line_refuted.

(** Sorting keeps all comments, orders them by where they start, and leaves those that start together in order. *)
Theorem comments_sorted_stable : forall cs,
  Permutation (sort_by_position cs) cs /\
  StronglySorted (fun a b => po_offset (sp_start (co_span a)) <= po_offset (sp_start (co_span b))) (sort_by_position cs) /\
  forall o, filter (fun c => po_offset (sp_start (co_span c)) =? o) (sort_by_position cs) =
            filter (fun c => po_offset (sp_start (co_span c)) =? o) cs.
Proof. intros cs. split; [apply sort_perm|]. split; [apply sort_sorted|]. intros o. apply sort_stable_filter. Qed.
Print Assumptions comments_sorted_stable.

(** Comments with text are, around a position, before it, after it or across it: only one of these, each as often as
    collected. *)
Theorem comments_around : forall cs p c,
  po_offset (sp_start (co_span c)) < po_offset (sp_end (co_span c)) ->
  count_occ comment_eq (comments_before cs p) c + count_occ comment_eq (comments_after cs p) c =
  if (po_offset (sp_start (co_span c)) <? po_offset p) && (po_offset p <? po_offset (sp_end (co_span c))) then 0 else count_occ comment_eq cs c.
Proof.
  intros cs p c L. unfold comments_before, comments_after. rewrite !count_filter.
  destruct (po_offset (sp_end (co_span c)) <=? po_offset p) eqn:A, (po_offset p <=? po_offset (sp_start (co_span c))) eqn:B,
    (po_offset (sp_start (co_span c)) <? po_offset p) eqn:C, (po_offset p <? po_offset (sp_end (co_span c))) eqn:D; cbn [andb];
    try lia; apply Nat.leb_le in A || apply Nat.leb_gt in A; apply Nat.leb_le in B || apply Nat.leb_gt in B;
    apply Nat.ltb_lt in C || apply Nat.ltb_ge in C; apply Nat.ltb_lt in D || apply Nat.ltb_ge in D; lia.
Qed.
Print Assumptions comments_around.

Example ex_sorted :
  sort_by_position [placed true (lit "b") 5 9; placed false (lit "a") 2 4; placed false (lit "c") 5 6] =
  [placed false (lit "a") 2 4; placed true (lit "b") 5 9; placed false (lit "c") 5 6] /\
  nearest [placed true (lit "b") 5 9; placed false (lit "a") 2 4] (at_off 1) (placed true (lit "b") 5 9).
Proof.
  split; [reflexivity|]. split; [now left|]. split; [reflexivity|]. split; [cbn; lia|].
  intros d [<- | [<- | []]] T _; [cbn; lia | discriminate].
Qed.

(** ** C125: switching comments off *)

(** [process_comments] writes nothing if comments are not preserved, and otherwise one text per comment, the content
    itself if they are not formatted. *)
Theorem comment_switches_partial : forall cs fmt given indent,
  process_comments (Processor cs false fmt) given indent = [] /\
  process_comments (Processor cs true false) given indent = map co_content given /\
  length (process_comments (Processor cs true fmt) given indent) = length given /\
  forall i c, nth_error given i = Some c -> nth_error (process_comments (Processor cs true true) given indent) i = Some (formatted_text c indent).
Proof.
  intros cs fmt given indent. split; [reflexivity|]. split; [reflexivity|]. split; [apply map_length|].
  intros i c H. cbn. now apply (map_nth_error (fun c => formatted_text c indent)).
Qed.
Print Assumptions comment_switches_partial.

(** The insertions heed neither switch. *)
Theorem comment_switches_refuted : forall cs out at_ indent a b,
  insert_comments_at_position (Processor cs a b) out at_ indent = insert_comments_at_position (Processor cs true true) out at_ indent /\
  insert_trailing_comment (Processor cs a b) out at_ = insert_trailing_comment (Processor cs true true) out at_ /\
  exists cs', insert_comments_at_position (Processor cs' false false) [] origin [] <> [].
Proof.
  intros. split; [reflexivity|]. split; [reflexivity|]. exists [plain Line (lit "x")]. discriminate.
Qed.
Print Assumptions comment_switches_refuted.

(** The comments between two positions are those that begin at or behind the one and end at or before the other, the trailing ones those
    marked so, each as often as collected and in the order of the collection. *)
Theorem comments_between : forall cs a b c, count_occ comment_eq (comments_in_range cs a b) c =
  if (po_offset a <=? po_offset (sp_start (co_span c))) && (po_offset (sp_end (co_span c)) <=? po_offset b) then count_occ comment_eq cs c else 0.
Proof. intros cs a b c. apply count_filter. Qed.
Print Assumptions comments_between.
(** A comment with text is between two positions exactly if it is behind the one and before the other. *)
Theorem comments_between_sides : forall cs a b c, In c (comments_in_range cs a b) <-> In c (comments_after cs a) /\ In c (comments_before cs b).
Proof. intros cs a b c. unfold comments_in_range, comments_after, comments_before. rewrite !filter_In, andb_true_iff. tauto. Qed.
Print Assumptions comments_between_sides.
Theorem comments_trailing : forall cs c, In c (trailing_comments cs) <-> In c cs /\ co_trailing c = true.
Proof. intros cs c. apply filter_In. Qed.
Print Assumptions comments_trailing.
Example comments_between_case : let cs := [placed true (lit "b") 5 9; placed false (lit "a") 2 4; placed false (lit "c") 9 12] in
  comments_in_range cs (at_off 5) (at_off 12) = [placed true (lit "b") 5 9; placed false (lit "c") 9 12] /\ comments_in_range cs (at_off 3) (at_off 11) = [placed true (lit "b") 5 9] /\ trailing_comments cs = [placed true (lit "b") 5 9].
Proof. repeat split. Qed.
