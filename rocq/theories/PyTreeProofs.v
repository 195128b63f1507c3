(** The layout of pieces: levels, tiling and blocks. *)
From Verif Require Import Base Utf8 Utf8Facts ScanSpec LexModel JsonLangSpec JsonLexProofs LangSpec LangLexProofs PyModel PySpec PyProofs.

(** ** Levels *)
Definition plain (p : piece) : Prop := (kind_of p =? PyIndent) = false /\ (kind_of p =? PyDedent) = false.
Lemma piece_plain k s r : py_piece k s r -> plain (k, s).
Proof.
  intros P. unfold plain, kind_of. cbn [fst]. set (f := fun k => negb (k =? PyIndent) && negb (k =? PyDedent)). assert (G : forall k, f k = true -> (k =? PyIndent) = false /\ (k =? PyDedent) = false) by (unfold f; intros x; destruct (x =? PyIndent), (x =? PyDedent); now split).
  destruct P; try (now split); apply G.
  - match goal with H : word_of _ _ |- _ => destruct H as [I | [-> _]]; [|reflexivity] end. exact (in_check (fun e => f (snd e)) reserved _ (eq_refl true) I).
  - match goal with H : In _ prefixes |- _ => exact (in_check (fun e => f (snd e)) prefixes _ (eq_refl true) H) end.
  - match goal with H : In _ operators |- _ => exact (in_check (fun e => f (snd e)) operators _ (eq_refl true) H) end.
  - match goal with H : In _ marks |- _ => exact (in_check (fun e => f (snd e)) marks _ (eq_refl true) H) end.
Qed.
Lemma cut_plain cs ps : cut py_piece cs ps -> Forall plain ps.
Proof. induction 1; constructor; [eapply piece_plain; eassumption | assumption]. Qed.

Lemma level_app a b n : level n (a ++ b) = match level n a with Some m => level m b | None => None end.
Proof.
  revert n. induction a as [| t a IH]; intros n; [reflexivity|]. cbn [app level]. destruct (tk_kind t =? PyIndent); [apply IH|]. destruct (tk_kind t =? PyDedent); [|apply IH]. destruct n; [reflexivity | apply IH].
Qed.
Lemma level_dedents off k : forall n, k <= n -> level n (map (at_ off) (repeat PyDedent k)) = Some (n - k).
Proof. induction k as [| k IH]; intros n L; cbn [repeat map level]; [now rewrite Nat.sub_0_r|]. destruct n as [| n]; [lia|]. cbn [at_ tk_kind]. change (PyDedent =? PyIndent) with false. change (PyDedent =? PyDedent) with true. cbn iota. rewrite IH by lia. reflexivity. Qed.
Lemma leave_length n stack : length (leave n stack) <= length stack.
Proof. induction stack as [| top rest IH]; cbn [leave length]; [lia | destruct (n <? top); cbn [length]; lia]. Qed.
Lemma leave_nonempty n stack : last stack 1 = 0 -> 0 < length (leave n stack).
Proof. induction stack as [| top rest IH]; [discriminate|]. intros B. cbn [leave]. destruct (Nat.ltb_spec n top); [|cbn; lia]. destruct rest; [cbn in B; lia | now apply IH]. Qed.
Lemma leave_last n stack : last stack 1 = 0 -> last (leave n stack) 1 = 0.
Proof. induction stack as [| top rest IH]; [discriminate|]. cbn [leave]. destruct (Nat.ltb_spec n top); [|easy]. intros B. destruct rest; [cbn in B; lia | now apply IH]. Qed.
Lemma shift_last n stack : last stack 1 = 0 -> last (fst (shift n stack)) 1 = 0.
Proof. unfold shift. intros B. destruct (hd 0 stack <? n); cbn [fst]; [destruct stack; [discriminate | exact B] | now apply leave_last]. Qed.
Lemma shift_level n stack off : last stack 1 = 0 -> level (length stack - 1) (map (at_ off) (snd (shift n stack))) = Some (length (fst (shift n stack)) - 1).
Proof.
  intros B. unfold shift. destruct (hd 0 stack <? n); cbn [fst snd].
  - destruct stack as [| a stack]; [discriminate|]. cbn. f_equal. lia.
  - pose proof (leave_length n stack). pose proof (leave_nonempty n stack B). rewrite level_dedents by lia. f_equal. lia.
Qed.

Definition marks_here (stack : list nat) (depth : nat) (start : bool) (ps : list piece) : list nat * list nat :=
  match (if start && (depth =? 0) then line_indent ps else None) with Some n => shift n stack | None => (stack, []) end.
Definition leaf_of (p : piece) (depth off : nat) : token := Token (if is_kind p PyNewline && (0 <? depth) then PyWhitespace else kind_of p) off (off + length (encode (snd p))).
Definition next_start (inner : bool) (p : piece) (depth : nat) (start : bool) : bool := if is_kind p PyNewline then (depth =? 0) || inner || start else start && (0 <? depth).
Lemma layout_cons inner stack depth start off p rest :
  layout inner stack depth start off (p :: rest) =
  (if is_kind p PyWhitespace then leaf_of p depth off :: map (at_ (off + length (encode (snd p)))) (snd (marks_here stack depth start (p :: rest)))
   else map (at_ off) (snd (marks_here stack depth start (p :: rest))) ++ [leaf_of p depth off])
  ++ layout inner (fst (marks_here stack depth start (p :: rest))) (deeper (kind_of p) depth) (next_start inner p depth start) (off + length (encode (snd p))) rest.
Proof. cbn [layout]. fold (marks_here stack depth start (p :: rest)). destruct (marks_here stack depth start (p :: rest)) as [st ms]. reflexivity. Qed.
Lemma marks_last stack depth start ps : last stack 1 = 0 -> last (fst (marks_here stack depth start ps)) 1 = 0.
Proof. intros B. unfold marks_here. destruct (if start && (depth =? 0) then line_indent ps else None); [now apply shift_last | exact B]. Qed.
Lemma marks_level stack depth start ps off : last stack 1 = 0 ->
  level (length stack - 1) (map (at_ off) (snd (marks_here stack depth start ps))) = Some (length (fst (marks_here stack depth start ps)) - 1).
Proof. intros B. unfold marks_here. destruct (if start && (depth =? 0) then line_indent ps else None); [now apply shift_level | reflexivity]. Qed.
Lemma leaf_level p depth off n ts : plain p -> level n (leaf_of p depth off :: ts) = level n ts.
Proof. intros [H1 H2]. unfold leaf_of. cbn [level tk_kind]. destruct (is_kind p PyNewline && (0 <? depth)); [reflexivity|]. now rewrite H1, H2. Qed.

Lemma layout_level inner : forall ps stack depth start off, Forall plain ps -> last stack 1 = 0 -> level (length stack - 1) (layout inner stack depth start off ps) = Some 0.
Proof.
  induction ps as [| p ps IH]; intros stack depth start off F B.
  - cbn [layout]. replace (map (fun _ => at_ off PyDedent) (tl stack)) with (map (at_ off) (repeat PyDedent (length stack - 1))).
    + rewrite level_dedents by lia. f_equal. lia.
    + destruct stack as [| a stack]; [reflexivity|]. cbn [tl length]. rewrite Nat.sub_succ, Nat.sub_0_r. clear. induction stack; [reflexivity|]. cbn. now f_equal.
  - inversion F as [| ? ? Pp Fs]; subst. rewrite layout_cons, level_app. pose proof (marks_last stack depth start (p :: ps) B) as B'. destruct (is_kind p PyWhitespace).
    + rewrite (leaf_level p _ _ _ _ Pp), (marks_level _ _ _ _ _ B). now apply IH.
    + rewrite level_app, (marks_level _ _ _ _ _ B), (leaf_level p _ _ _ _ Pp). cbn [level]. now apply IH.
Qed.

(** ** Tiling *)
Lemma tiles_app : forall x a m b y, tiles a m x -> tiles m b y -> tiles a b (x ++ y).
Proof. induction x as [| t x IH]; intros a m b y H1 H2; cbn [tiles app] in *; [now subst|]. destruct H1 as (A & B & C). split; [assumption|]. split; [assumption|]. now apply (IH _ m). Qed.
Lemma tiles_marks off ms : tiles off off (map (at_ off) ms).
Proof. induction ms as [| m ms IH]; cbn [map tiles at_ tk_start tk_end]; [reflexivity|]. now split; [|split]. Qed.
Lemma tiles_leaf p depth off : tiles off (off + length (encode (snd p))) [leaf_of p depth off].
Proof. cbn [tiles leaf_of tk_start tk_end]. split; [reflexivity|]. split; [lia | reflexivity]. Qed.
Lemma layout_tiles inner : forall ps stack depth start off, tiles off (off + length (encode (text_of_pieces ps))) (layout inner stack depth start off ps).
Proof.
  induction ps as [| p ps IH]; intros stack depth start off.
  - cbn [layout]. change (text_of_pieces []) with (@nil Z). cbn [encode length]. rewrite Nat.add_0_r. induction (tl stack) as [| a st IH]; cbn [map tiles at_ tk_start tk_end]; [reflexivity|]. now split; [|split].
  - rewrite layout_cons. change (text_of_pieces (p :: ps)) with (snd p ++ text_of_pieces ps). rewrite encode_app, app_length, Nat.add_assoc. eapply tiles_app; [|apply IH]. destruct (is_kind p PyWhitespace).
    + change (leaf_of p depth off :: ?x) with ([leaf_of p depth off] ++ x). eapply tiles_app; [apply tiles_leaf | apply tiles_marks].
    + eapply tiles_app; [apply tiles_marks | apply tiles_leaf].
Qed.

(** ** Brackets that are closed on their line *)
Lemma layout_flat : forall ps stack depth start off, flat_brackets depth ps -> layout true stack depth start off ps = layout false stack depth start off ps.
Proof.
  induction ps as [| p ps IH]; intros stack depth start off F; [reflexivity|]. rewrite !layout_cons. destruct F as [F1 F2].
  assert (next_start true p depth start = next_start false p depth start) as ->. { unfold next_start. destruct (is_kind p PyNewline); [now rewrite (F1 eq_refl) | reflexivity]. }
  now rewrite IH.
Qed.

(** ** Blocks *)
Section StmtInd.
  Variable P : stmt -> Prop.
  Hypothesis H : forall before ws line nl block, Forall P block -> P (Stmt before ws line nl block).
  Fixpoint stmt_ind' (t : stmt) : P t :=
    match t with
    | Stmt before ws line nl block => H before ws line nl block ((fix go l : Forall P l := match l with [] => Forall_nil _ | x :: l => Forall_cons _ (stmt_ind' x) (go l) end) block)
    end.
End StmtInd.

(** The kinds that count *)
Definition K inner stack depth start ps := counted (layout inner stack depth start 0 ps).
Lemma counted_app a b : counted (a ++ b) = counted a ++ counted b.
Proof. unfold counted. now rewrite filter_app, map_app. Qed.
Definition is_mark (k : nat) : Prop := k = PyIndent \/ k = PyDedent.
Lemma counted_marks off ms : Forall is_mark ms -> counted (map (at_ off) ms) = ms.
Proof. unfold counted. induction 1 as [| m ms [-> | ->] _ IH]; cbn; [reflexivity | now f_equal | now f_equal]. Qed.
Lemma shift_marks n stack : Forall is_mark (snd (shift n stack)).
Proof. unfold shift. destruct (hd 0 stack <? n); cbn [snd]; [constructor; [now left | constructor]|]. apply Forall_forall. intros x Hx. apply repeat_spec in Hx. now right. Qed.
Lemma here_marks stack depth start ps : Forall is_mark (snd (marks_here stack depth start ps)).
Proof. unfold marks_here. destruct (if start && (depth =? 0) then line_indent ps else None); [apply shift_marks | constructor]. Qed.
Lemma counted_leaf p depth off : counted [leaf_of p depth off] = if count p then [kind_of p] else [].
Proof.
  unfold counted, leaf_of, count, counts, is_kind. cbn [filter map tk_kind]. destruct (Nat.eqb_spec (kind_of p) PyNewline) as [E | E]; cbn [andb].
  - rewrite !orb_true_r. cbn [negb]. destruct (0 <? depth); [reflexivity|]. rewrite E. reflexivity.
  - destruct (Nat.eqb_spec (kind_of p) PyNewline); [contradiction|]. destruct ((kind_of p =? PyWhitespace) || (kind_of p =? PyComment) || false); reflexivity.
Qed.
Lemma counted_off inner : forall ps stack depth start off off', counted (layout inner stack depth start off ps) = counted (layout inner stack depth start off' ps).
Proof.
  induction ps as [| p ps IH]; intros stack depth start off off'.
  - cbn [layout]. induction (tl stack) as [| a st IH]; [reflexivity|]. cbn [map]. unfold counted in *. cbn [filter]. change (counts (at_ off PyDedent)) with true. change (counts (at_ off' PyDedent)) with true. cbn [map]. now f_equal.
  - rewrite !layout_cons, !counted_app. f_equal; [|apply IH]. pose proof (here_marks stack depth start (p :: ps)) as M. destruct (is_kind p PyWhitespace).
    + change (leaf_of p depth off :: ?x) with ([leaf_of p depth off] ++ x). change (leaf_of p depth off' :: ?x) with ([leaf_of p depth off'] ++ x). now rewrite !counted_app, !counted_leaf, !counted_marks.
    + now rewrite !counted_app, !counted_leaf, !counted_marks.
Qed.
Lemma K_cons inner stack depth start p rest :
  K inner stack depth start (p :: rest) =
  snd (marks_here stack depth start (p :: rest)) ++ (if count p then [kind_of p] else []) ++ K inner (fst (marks_here stack depth start (p :: rest))) (deeper (kind_of p) depth) (next_start inner p depth start) rest.
Proof.
  unfold K. rewrite layout_cons, counted_app. rewrite (counted_off inner rest _ _ _ (0 + length (encode (snd p))) 0). pose proof (here_marks stack depth start (p :: rest)) as M. destruct (is_kind p PyWhitespace) eqn:E.
  - change (leaf_of p depth 0 :: ?x) with ([leaf_of p depth 0] ++ x). rewrite !counted_app, counted_leaf, counted_marks by assumption. assert (count p = false) as -> by (unfold count; now rewrite E). reflexivity.
  - rewrite counted_app, counted_leaf, counted_marks by assumption. now rewrite <- app_assoc.
Qed.
Lemma K_nil inner stack depth start : K inner stack depth start [] = map (fun _ => PyDedent) (tl stack).
Proof. unfold K. cbn [layout]. unfold counted. induction (tl stack) as [| a st IH]; [reflexivity|]. cbn. now f_equal. Qed.

(** Within a line *)
Lemma K_line inner stack : forall line depth rest, Forall (fun p => is_kind p PyNewline = false) line ->
  K inner stack depth false (line ++ rest) = map kind_of (filter count line) ++ K inner stack (fold_left (fun d p => deeper (kind_of p) d) line depth) false rest.
Proof.
  induction line as [| p line IH]; intros depth rest F; [reflexivity|]. inversion F as [| ? ? Hp Fs]; subst. cbn [app]. rewrite K_cons. unfold marks_here, next_start. cbn [andb fst snd app]. rewrite Hp. rewrite (IH _ _ Fs). cbn [filter fold_left]. destruct (count p); reflexivity.
Qed.
Lemma K_newline inner stack start nl rest : K inner stack 0 start ((Some PyNewline, nl) :: rest) = K inner stack 0 true rest.
Proof. rewrite K_cons. unfold marks_here. cbn [line_indent]. change (is_kind (Some PyNewline, nl) PyWhitespace) with false. change (vain ((Some PyNewline, nl) :: rest)) with true. destruct start; reflexivity. Qed.

(** At the start of a line *)
Lemma K_start_plain inner stack p rest : count p = true -> K inner stack 0 true (p :: rest) = snd (shift 0 stack) ++ K inner (fst (shift 0 stack)) 0 false (p :: rest).
Proof.
  intros C. rewrite !K_cons. unfold marks_here at 1 2, next_start. cbn [andb Nat.eqb]. pose proof C as C'. unfold count in C'. apply negb_true_iff in C'. apply orb_false_iff in C' as [C' C3]. apply orb_false_iff in C' as [C1 C2]. cbn [line_indent vain]. rewrite C1, C2, C3. cbn [orb]. reflexivity.
Qed.
Lemma K_start_blank inner stack w ws p rest : count p = true -> K inner stack 0 true ((Some PyWhitespace, w :: ws) :: p :: rest) = snd (shift (columns (w :: ws)) stack) ++ K inner (fst (shift (columns (w :: ws)) stack)) 0 false (p :: rest).
Proof.
  intros C. rewrite K_cons. unfold marks_here at 1 2, next_start. cbn [andb Nat.eqb]. pose proof C as C'. unfold count in C'. apply negb_true_iff in C'. apply orb_false_iff in C' as [C' C3]. apply orb_false_iff in C' as [C1 C2]. cbn [line_indent]. change (is_kind (Some PyWhitespace, w :: ws) PyWhitespace) with true. cbn iota. cbn [vain]. rewrite C2, C3. cbn [orb]. reflexivity.
Qed.
Lemma K_start inner stack ws p rest : count p = true -> K inner stack 0 true (indent_piece ws ++ p :: rest) = snd (shift (columns ws) stack) ++ K inner (fst (shift (columns ws) stack)) 0 false (p :: rest).
Proof. intros C. destruct ws as [| w ws]; [now apply K_start_plain | now apply K_start_blank]. Qed.
Lemma K_vain inner stack v rest : vain_lines v -> K inner stack 0 true (v ++ rest) = K inner stack 0 true rest.
Proof.
  induction 1 as [| ws cm nl ps Hc V IH]; [reflexivity|]. rewrite <- IH. rewrite <- !app_assoc. cbn [app]. destruct Hc as [-> | (c & ->)]; destruct ws as [| w ws]; cbn [indent_piece app].
  - apply K_newline.
  - rewrite K_cons. unfold marks_here. cbn [andb Nat.eqb line_indent]. change (is_kind (Some PyWhitespace, w :: ws) PyWhitespace) with true. change (vain ((Some PyNewline, nl) :: ps ++ rest)) with true. cbn [fst snd app]. apply K_newline.
  - rewrite K_cons. unfold marks_here. cbn [andb Nat.eqb line_indent]. change (is_kind (Some PyComment, c) PyWhitespace) with false. change (vain ((Some PyComment, c) :: (Some PyNewline, nl) :: ps ++ rest)) with true. cbn [fst snd app]. apply K_newline.
  - rewrite K_cons. unfold marks_here. cbn [andb Nat.eqb line_indent]. change (is_kind (Some PyWhitespace, w :: ws) PyWhitespace) with true. change (vain ((Some PyComment, c) :: (Some PyNewline, nl) :: ps ++ rest)) with true. cbn [fst snd app].
    change (count (Some PyWhitespace, w :: ws)) with false. cbn [app]. change (deeper (kind_of (Some PyWhitespace, w :: ws)) 0) with 0. rewrite K_cons. unfold marks_here, next_start. cbn [andb fst snd app]. apply K_newline.
Qed.
Lemma K_last inner stack e : last_line e -> K inner stack 0 true e = map (fun _ => PyDedent) (tl stack).
Proof.
  intros (ws & cm & -> & Hc). destruct Hc as [-> | (c & ->)]; destruct ws as [| w ws]; cbn [indent_piece app].
  - apply K_nil.
  - rewrite K_cons. unfold marks_here. cbn [andb Nat.eqb line_indent]. change (is_kind (Some PyWhitespace, w :: ws) PyWhitespace) with true. cbn [vain fst snd app]. apply K_nil.
  - rewrite K_cons. unfold marks_here. cbn [andb Nat.eqb line_indent]. change (is_kind (Some PyComment, c) PyWhitespace) with false. change (vain [(Some PyComment, c)]) with true. cbn [fst snd app]. apply K_nil.
  - rewrite K_cons. unfold marks_here. cbn [andb Nat.eqb line_indent]. change (is_kind (Some PyWhitespace, w :: ws) PyWhitespace) with true. change (vain [(Some PyComment, c)]) with true. cbn [fst snd app]. change (count (Some PyWhitespace, w :: ws)) with false. cbn [app]. change (deeper (kind_of (Some PyWhitespace, w :: ws)) 0) with 0.
    rewrite K_cons. unfold marks_here, next_start. cbn [andb fst snd app]. apply K_nil.
Qed.

(** A statement and what follows *)
Lemma K_stmt inner stack before ws line nl rest : vain_lines before -> good_line line ->
  K inner stack 0 true (before ++ indent_piece ws ++ line ++ (Some PyNewline, nl) :: rest) =
  snd (shift (columns ws) stack) ++ map kind_of (filter count line) ++ K inner (fst (shift (columns ws) stack)) 0 true rest.
Proof.
  intros V ((p & l & -> & C) & F & D). rewrite (K_vain _ _ _ _ V). cbn [app]. rewrite (K_start inner stack ws p _ C). f_equal. change (p :: l ++ ?x) with ((p :: l) ++ x). rewrite (K_line _ _ _ _ _ F). f_equal. unfold depth_after in D. rewrite D. apply K_newline.
Qed.

Definition begins (n : nat) (rest : list piece) : Prop :=
  (exists v ws p r, vain_lines v /\ rest = v ++ indent_piece ws ++ p :: r /\ count p = true /\ columns ws <= n) \/ (exists v e, vain_lines v /\ last_line e /\ rest = v ++ e).
Lemma begins_le n m rest : n <= m -> begins n rest -> begins m rest.
Proof. intros L [(v & ws & p & r & V & E & C & W) | H]; [left; exists v, ws, p, r; split; [assumption|]; split; [assumption|]; split; [assumption | lia] | now right]. Qed.
Lemma leave_top p n st : p <= n -> hd 0 (n :: st) <? p = false.
Proof. intros L. cbn [hd]. apply Nat.ltb_ge. lia. Qed.
Lemma begins_closes inner n m st rest : n < m -> begins n rest -> K inner (m :: n :: st) 0 true rest = PyDedent :: K inner (n :: st) 0 true rest.
Proof.
  intros L [(v & ws & p & r & V & -> & C & W) | (v & e & V & E & ->)].
  - rewrite !(K_vain _ _ _ _ V), !(K_start _ _ _ _ _ C). unfold shift. rewrite (leave_top _ n st W). cbn [hd]. destruct (Nat.ltb_spec m (columns ws)); [lia|]. cbn [fst snd]. change (leave (columns ws) (m :: n :: st)) with (if columns ws <? m then leave (columns ws) (n :: st) else m :: n :: st). destruct (Nat.ltb_spec (columns ws) m); [|lia].
    pose proof (leave_length (columns ws) (n :: st)). replace (length (m :: n :: st) - length (leave (columns ws) (n :: st))) with (S (length (n :: st) - length (leave (columns ws) (n :: st)))) by (cbn [length] in *; lia). reflexivity.
  - rewrite !(K_vain _ _ _ _ V), !(K_last _ _ _ E). reflexivity.
Qed.
Lemma shift_same n st : shift n (n :: st) = (n :: st, []).
Proof. unfold shift. cbn [hd leave]. rewrite Nat.ltb_irrefl. now rewrite Nat.sub_diag. Qed.
Lemma shift_in n m st : n < m -> shift m (n :: st) = (m :: n :: st, [PyIndent]).
Proof. intros L. unfold shift. cbn [hd]. destruct (Nat.ltb_spec n m); [reflexivity | lia]. Qed.

Lemma stmt_begins n t rest : indented n t -> begins n (pieces_of t ++ rest).
Proof.
  intros I. destruct I as [n before ws line nl block V W ((p & l & -> & C) & _) _]. left. exists before, ws, p, (l ++ ((Some PyNewline, nl) :: concat (map pieces_of block)) ++ rest). split; [assumption|]. cbn [pieces_of]. split; [now rewrite <- !app_assoc|]. split; [assumption | lia].
Qed.
Lemma K_enter inner n m st t rest : n < m -> indented m t -> K inner (n :: st) 0 true (pieces_of t ++ rest) = PyIndent :: K inner (m :: n :: st) 0 true (pieces_of t ++ rest).
Proof.
  intros L I. destruct I as [m before ws line nl block V W G _]. cbn [pieces_of]. rewrite <- !app_assoc. cbn [app]. rewrite !(K_stmt inner _ before ws line nl _ V G), W, (shift_in n m st L), (shift_same m (n :: st)). reflexivity.
Qed.

Lemma tree_kinds inner : forall t n st rest, indented n t -> begins n rest -> K inner (n :: st) 0 true (pieces_of t ++ rest) = program t ++ K inner (n :: st) 0 true rest.
Proof.
  induction t as [before ws line nl block IH] using stmt_ind'. intros n st rest I Bg. inversion I as [? ? ? ? ? ? V W G Hb]; subst. cbn [pieces_of program]. rewrite <- !app_assoc. cbn [app]. rewrite (K_stmt inner _ before ws line nl _ V G), (shift_same (columns ws) st). cbn [fst snd app]. f_equal.
  assert (Fl : forall m st', columns ws < m -> Forall (indented m) block -> K inner (m :: st') 0 true (concat (map pieces_of block) ++ rest) = concat (map program block) ++ K inner (m :: st') 0 true rest).
  { intros m st' L. clear Hb I. induction block as [| t block IHb]; intros F; [reflexivity|]. inversion IH as [| ? ? Ht Hs]; subst. inversion F as [| ? ? It Is]; subst. cbn [map concat]. rewrite <- !app_assoc. rewrite (Ht m st' _ It).
    - f_equal. now apply IHb.
    - destruct block as [| t2 block]; [cbn [map concat app]; apply (begins_le (columns ws)); [lia | assumption]|]. cbn [map concat]. rewrite <- app_assoc. apply stmt_begins. now inversion Is. }
  destruct block as [| t block]; [reflexivity|]. destruct (Hb ltac:(discriminate)) as (m & L & F). cbn [map concat]. rewrite <- !app_assoc.
  assert (It : indented m t) by now inversion F. rewrite (K_enter inner _ m st t _ L It). specialize (Fl m (columns ws :: st) L F). cbn [map concat] in Fl. rewrite <- !app_assoc in Fl. rewrite Fl, (begins_closes inner _ m st rest L Bg). cbn [app]. f_equal. rewrite <- !app_assoc. reflexivity.
Qed.
Lemma forest_kinds inner ts v e : Forall (indented 0) ts -> vain_lines v -> last_line e ->
  counted (layout inner [0] 0 true 0 (concat (map pieces_of ts) ++ v ++ e)) = concat (map program ts).
Proof.
  intros F V E. change (K inner [0] 0 true (concat (map pieces_of ts) ++ v ++ e) = concat (map program ts)). induction F as [| t ts It F IH].
  - cbn [map concat app]. now rewrite (K_vain _ _ _ _ V), (K_last _ _ _ E).
  - cbn [map concat]. rewrite <- app_assoc. rewrite (tree_kinds inner t 0 [] _ It); [now f_equal|]. inversion F as [| t2 ts2 It2 F2 E2].
    + cbn [map concat app]. right. now exists v, e.
    + cbn [map concat]. rewrite <- app_assoc. now apply stmt_begins.
Qed.
