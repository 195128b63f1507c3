(** Printed Lua programs are in the grammar. *)
From Verif Require Import Base Utf8 Utf8Facts LexModel TreeModel JsonLangSpec LangSpec LangLexProofs LuaModel LuaSpec LuaAstModel LuaAstSpec LuaPrintSpec.

(** ** Texts of pieces *)
Lemma tx_app a b : text_of_pieces (a ++ b) = text_of_pieces a ++ text_of_pieces b.
Proof. apply flat_map_app. Qed.

Definition fine (t : list Z) : Prop := Forall is_scalar t /\ mild t.
Lemma fine_app a c b : fine a -> fine (c :: b) -> (c < 128)%Z -> fine (a ++ c :: b).
Proof.
  intros (Sa & Ma) (Sb & Mb) Hc. split; [apply Forall_app; now split|]. revert Sa Ma. induction a as [| x a IH]; intros Sa Ma; [exact Mb|].
  inversion Sa; subst. assert (Ma' : mild a) by (intros p y d q E I; apply (Ma (x :: p) y d q); [now rewrite E | exact I]). specialize (IH ltac:(assumption) Ma').
  intros [| y p] z d q E I.
  - injection E as <- E. destruct a as [| e a]; injection E as -> E; [exact Hc|]. apply (Ma [] x d a eq_refl I).
  - injection E as <- E. exact (IH p z d q E I).
Qed.
Lemma fine_ascii t : ascii t -> fine t.
Proof.
  intros H. split.
  - eapply Forall_impl; [|exact H]. intros x Hx. cbn beta in Hx. unfold is_scalar. lia.
  - intros a c d b -> _. apply Forall_app in H. destruct H as [_ H]. inversion H as [| ? ? _ H2]; subst. inversion H2; subst. lia.
Qed.

(** The pieces [e] are cut from a text with the bytes [t] that begins with [c] if what follows it does not begin with a
    character outside of [S]. *)
Definition rep (e : list piece) (c : Z) (S : Z -> Prop) (t : str) : Prop :=
  encode (text_of_pieces e) = t /\ fine (text_of_pieces e) /\ (exists x, text_of_pieces e = c :: x /\ (c < 128)%Z) /\
  forall r rs, (forall d, hd_error r = Some d -> S d) -> cut lua_piece r rs -> cut lua_piece (text_of_pieces e ++ r) (e ++ rs).
Lemma rep_app e1 c1 S1 t1 e2 c2 S2 t2 : rep e1 c1 S1 t1 -> rep e2 c2 S2 t2 -> S1 c2 -> rep (e1 ++ e2) c1 S2 (t1 ++ t2).
Proof.
  intros (E1 & F1 & (x1 & H1 & A1) & C1) (E2 & F2 & (x2 & H2 & A2) & C2) Hc. unfold rep. rewrite tx_app, encode_app, E1, E2. split; [reflexivity|].
  split; [rewrite H2 in *; now apply fine_app|]. split; [exists (x1 ++ text_of_pieces e2); rewrite H1; now split|].
  intros r rs Hr Cr. rewrite <- !app_assoc. apply C1; [|now apply C2]. rewrite H2. now intros d [= <-].
Qed.
Lemma rep_stop e c (S S' : Z -> Prop) t : rep e c S t -> (forall d, S' d -> S d) -> rep e c S' t.
Proof. intros (A & B & C & D) H. split; [exact A|]. split; [exact B|]. split; [exact C|]. intros r rs Hr. apply D. intros d E. apply H, (Hr d E). Qed.
Lemma rep_text e c S t t' : rep e c S t -> t = t' -> rep e c S t'.
Proof. intros H <-. exact H. Qed.
(** Perhaps nothing *)
Definition repo (e : list piece) (S : Z -> Prop) (t : str) : Prop := e = [] /\ t = [] \/ exists c, rep e c S t.
Lemma rep_mid a ca (Sa : Z -> Prop) ta e Se te b cb Sb tb : rep a ca Sa ta -> (forall d, Sa d) -> repo e Se te -> rep b cb Sb tb -> Se cb -> rep (a ++ e ++ b) ca Sb (ta ++ te ++ tb).
Proof.
  intros Ra Any [[-> ->]|(c & Re)] Rb Hs; cbn [app]; [eapply rep_app; [exact Ra|exact Rb|apply Any]|].
  eapply rep_app; [exact Ra| |apply Any]. eapply rep_app; [exact Re|exact Rb|exact Hs].
Qed.

(** ** Single pieces *)
Definition anyc (c : Z) : Prop := True.
Definition calm (c : Z) : Prop := ~ word c /\ ~ sign c.
Definition quiet (c : Z) : Prop := calm c /\ c <> 46%Z.
Definition unjoined (c : Z) : Prop := ~ In c [61; 60; 62; 46; 58; 47]%Z.
Definition nonblank (c : Z) : Prop := ~ blank c.
Definition starter (c : Z) : Prop := start c \/ digit c \/ In c [34; 123; 35; 126]%Z.

Lemma rep_one k c s (S : Z -> Prop) : ascii (c :: s) -> (forall r, (forall d, hd_error r = Some d -> S d) -> lua_piece (Some k) (c :: s) r) -> rep [(Some k, c :: s)] c S (c :: s).
Proof.
  intros A P. unfold rep. cbn [text_of_pieces flat_map snd]. rewrite app_nil_r. split; [now apply encode_ascii|]. split; [now apply fine_ascii|]. split; [exists s; split; [reflexivity|]; inversion A; lia|].
  intros r rs Hr Cr. cbn [app]. apply (CutPiece _ _ (c :: s)); [discriminate|now apply P|exact Cr].
Qed.
Definition ws : piece := (Some UWhitespace, [32%Z]).
Definition nl : piece := (Some UNewline, [10%Z]).
Lemma ws_rep : rep [ws] 32 nonblank [32%Z].
Proof. apply rep_one; [repeat constructor; lia|]. intros r Hr. apply PBlank; [discriminate|]. split; [repeat constructor|]. intros d E. exact (Hr d E). Qed.
Lemma nl_rep : rep [nl] 10 anyc [10%Z].
Proof. apply rep_one; [repeat constructor; lia|]. intros r _. apply PLine. Qed.
Lemma trivia_ws : Forall trivia [ws]. Proof. constructor; [left; reflexivity|constructor]. Qed.
Lemma trivia_nl : Forall trivia [nl]. Proof. constructor; [right; left; reflexivity|constructor]. Qed.

Lemma start_ascii c : start c -> (0 <= c < 128)%Z. Proof. unfold start, letter. lia. Qed.
Lemma word_ascii c : word c -> (0 <= c < 128)%Z. Proof. unfold word, start, letter, digit. lia. Qed.
Lemma spelled_rep k c s : start c -> Forall word s -> word_kind (c :: s) k -> rep [(Some k, c :: s)] c calm (c :: s).
Proof.
  intros Hc Hs K. apply rep_one.
  - constructor; [now apply start_ascii|]. eapply Forall_impl; [|exact Hs]. exact word_ascii.
  - intros r Hr. apply PWord; [exact Hc| |exact K]. split; [exact Hs|]. intros d E. apply (Hr d E).
Qed.
Lemma name_rep s : plain_name s -> exists c, rep [(Some UIdentifier, s)] c calm s /\ start c /\ encode s = s.
Proof.
  intros (c & t & -> & Hc & Ht & N). exists c. split; [|split; [exact Hc|]].
  - apply spelled_rep; [exact Hc|exact Ht|]. right. split; [exact N|reflexivity].
  - apply encode_ascii. constructor; [now apply start_ascii|]. eapply Forall_impl; [|exact Ht]. exact word_ascii.
Qed.
Lemma keyword_rep s k : In (s, k) keywords -> exists c, rep [(Some k, s)] c calm s /\ start c.
Proof.
  intros I. assert (W : exists c t, s = c :: t /\ start c /\ Forall word t).
  { assert (G : Forall (fun p => exists c t, fst p = c :: t /\ start c /\ Forall word t) keywords).
    { unfold keywords. repeat (apply Forall_cons; [do 2 eexists; split; [reflexivity|]; split; [left; unfold letter; cbn; lia|]; repeat (apply Forall_cons; [left; left; unfold letter; cbn; lia|]); apply Forall_nil|]). apply Forall_nil. }
    rewrite Forall_forall in G. apply (G _ I). }
  destruct W as (c & t & -> & Hc & Ht). exists c. split; [|exact Hc]. apply spelled_rep; [exact Hc|exact Ht|]. left. exact I.
Qed.

Lemma mark_rep c s k : In (c :: s, k) marks -> rep [(Some k, c :: s)] c unjoined (c :: s).
Proof.
  intros I. assert (G : Forall (fun p => ascii (fst p) /\ forall d, In d (tl (fst p)) -> In d [61; 60; 62; 46; 58; 47]%Z) marks).
  { unfold marks. repeat (apply Forall_cons; [split; [repeat (apply Forall_cons; [cbn; lia|]); apply Forall_nil|cbn; intuition lia]|]). apply Forall_nil. }
  rewrite Forall_forall in G. apply rep_one; [apply (G _ I)|]. intros r Hr. apply PMark; [exact I|]. intros s' k' x I' E.
  destruct (Nat.le_gt_cases (length s') (length (c :: s))) as [L|L]; [exact L|exfalso].
  destruct s' as [| c' s']; [cbn in L; lia|]. cbn [length] in L. assert (Hn : nth_error ((c :: s) ++ r) (length (c :: s)) = nth_error ((c' :: s') ++ x) (length (c :: s))) by now rewrite E.
  rewrite nth_error_app2, Nat.sub_diag in Hn by lia. rewrite nth_error_app1 in Hn by (cbn [length]; lia). cbn [length] in Hn. change (nth_error (c' :: s') (S (length s))) with (nth_error s' (length s)) in Hn.
  destruct (nth_error s' (length s)) as [d|] eqn:D; [|apply nth_error_None in D; lia]. apply nth_error_In in D. apply (Hr d); [destruct r; [discriminate|exact Hn]|]. apply (G _ I'). exact D.
Qed.
(** Marks that begin no longer one *)
Lemma lone_rep c k : In ([c], k) marks -> ~ In c [61; 126; 60; 62; 46; 58; 47]%Z -> rep [(Some k, [c])] c anyc [c].
Proof.
  intros I N. assert (G : Forall (fun p => ascii (fst p) /\ (1 < length (fst p) -> In (hd 0%Z (fst p)) [61; 126; 60; 62; 46; 58; 47]%Z)) marks).
  { unfold marks. repeat (apply Forall_cons; [split; [repeat (apply Forall_cons; [cbn; lia|]); apply Forall_nil|cbn; intuition lia]|]). apply Forall_nil. }
  rewrite Forall_forall in G. apply rep_one; [apply (G _ I)|]. intros r _. apply PMark; [exact I|]. intros s' k' x I' E.
  destruct s' as [| c' s']; [cbn; lia|]. injection E as <- E. cbn [length]. destruct s' as [| d s']; [cbn; lia|]. exfalso. apply N. apply (G _ I'). cbn. lia.
Qed.

Lemma string_rep cs : Forall is_scalar cs -> mild cs -> inside 34 cs -> rep [(Some UString, 34%Z :: cs ++ [34%Z])] 34 anyc (lit """" ++ encode cs ++ lit """").
Proof.
  intros Sc Md In_. unfold rep. cbn [text_of_pieces flat_map snd]. rewrite app_nil_r. split; [|split; [|split]].
  - change (34%Z :: cs ++ [34%Z]) with ([34%Z] ++ cs ++ [34%Z]). rewrite !encode_app. reflexivity.
  - assert (A : fine (cs ++ [34%Z])). { apply fine_app; [now split|apply fine_ascii; repeat constructor; lia|lia]. }
    destruct A as [A1 A2]. split; [constructor; [unfold is_scalar; lia|exact A1]|]. intros [| y p] z d q E I.
    + injection E as <- E. cbn in I. lia.
    + injection E as <- E. exact (A2 p z d q E I).
  - eexists. split; [reflexivity|lia].
  - intros r rs _ Cr. cbn [app]. apply (CutPiece _ _ (34%Z :: cs ++ [34%Z])); [discriminate| |exact Cr]. apply PString; [left; reflexivity|exact In_].
Qed.
Lemma number_rep s : number s [] -> exists c, rep [(Some UNumber, s)] c quiet s /\ digit c.
Proof.
  intros (i & f & e & E & Ni & Hi & Hf & He & _). assert (Da : forall t, Forall digit t -> ascii t) by (intros t; apply Forall_impl; intros x; unfold digit; lia).
  assert (As : ascii s).
  { rewrite E. apply Forall_app. split; [now apply Da|]. apply Forall_app. split.
    - destruct Hf as [-> | (t & -> & Ht)]; [constructor|]. constructor; [lia|now apply Da].
    - destruct He as [-> | (m & g & t & -> & Hm & Hg & Ht)]; [constructor|]. constructor; [unfold exp_mark in Hm; lia|]. apply Forall_app. split; [|now apply Da].
      destruct Hg as [-> | (c & -> & Hc)]; [constructor|]. constructor; [unfold sign in Hc; lia|constructor]. }
  destruct i as [| c i]; [easy|]. inversion Hi as [| ? ? Dc Di]; subst. exists c. split; [|exact Dc].
  apply (rep_one UNumber c (i ++ f ++ e)); [exact As|]. intros r Hr. apply PNumber. exists (c :: i), f, e. split; [reflexivity|]. split; [discriminate|]. split; [exact Hi|]. split; [exact Hf|]. split; [exact He|].
  unfold ends. split; [intros d D X; destruct (Hr d D) as [[Y _] _]; apply Y; right; exact X|]. split; [intros _ _ d D <-; now destruct (Hr 46%Z D) as [_ Y]|].
  split; [intros _ d D X; destruct (Hr d D) as [[Y _] _]; apply Y; left; left; unfold exp_mark in X; unfold letter; lia|]. intros x _ d D X. destruct (Hr d D) as [[_ Y] _]. contradiction.
Qed.

(** ** Which characters may follow which *)
Ltac chars := unfold anyc, quiet, calm, unjoined, nonblank, word, start, letter, digit, sign, blank; cbn [In]; try exact I; intuition lia.
Lemma start_nonblank c : start c -> nonblank c. Proof. unfold nonblank, start, letter, blank. lia. Qed.
Lemma start_unjoined c : start c -> unjoined c. Proof. unfold unjoined, start, letter. cbn. lia. Qed.
Lemma starter_nonblank c : starter c -> nonblank c. Proof. unfold starter, nonblank, start, letter, digit, blank. cbn. intuition lia. Qed.
Lemma starter_unjoined c : starter c -> unjoined c. Proof. unfold starter, unjoined, start, letter, digit. cbn. intuition lia. Qed.

(** Operators with a blank after them *)
Ltac member := repeat (first [left; reflexivity | right]).
Lemma binary_rep s p right : In (s, p, right) binaries -> exists k c, rep [(Some k, s)] c (eq 32%Z) s /\ nonblank c /\ operator k p right /\ encode s = s.
Proof.
  assert (C : forall d, 32%Z = d -> calm d) by (intros d <-; chars). assert (U : forall d, 32%Z = d -> unjoined d) by (intros d <-; chars).
  assert (W : forall s k, In (s, k) keywords -> exists c, rep [(Some k, s)] c (eq 32%Z) s /\ nonblank c).
  { intros s0 k0 I. destruct (keyword_rep s0 k0 I) as (c & R & Hc). exists c. split; [eapply rep_stop; [exact R|exact C]|now apply start_nonblank]. }
  assert (M : forall c s k, In (c :: s, k) marks -> rep [(Some k, c :: s)] c (eq 32%Z) (c :: s)) by (intros; eapply rep_stop; [apply mark_rep; assumption|exact U]).
  assert (G : Forall (fun x => exists k c, rep [(Some k, fst (fst x))] c (eq 32%Z) (fst (fst x)) /\ nonblank c /\ operator k (snd (fst x)) (snd x) /\ encode (fst (fst x)) = fst (fst x)) binaries).
  { unfold binaries. apply Forall_cons; [|apply Forall_cons].
    - destruct (W (lit "or") UOr ltac:(unfold keywords; member)) as (c & R & Hc). exists UOr, c. split; [exact R|]. split; [exact Hc|]. split; [|reflexivity]. exists [UOr]. split; [unfold operators; member|member].
    - destruct (W (lit "and") UAnd ltac:(unfold keywords; member)) as (c & R & Hc). exists UAnd, c. split; [exact R|]. split; [exact Hc|]. split; [|reflexivity]. exists [UAnd]. split; [unfold operators; member|member].
    - repeat (apply Forall_cons; [cbn [fst snd]; do 2 eexists; split; [apply M; unfold marks; member|]; split; [intros [X|X]; vm_compute in X; discriminate|]; split; [|reflexivity]; eexists; split; [unfold operators; member|member]|]). apply Forall_nil. }
  rewrite Forall_forall in G. intros I. exact (G _ I).
Qed.

(** ** First tokens *)
Section Print.
  Context {F : Type} (parse : str -> option F) (show : F -> str).
  Notation pexpr := (print_expr show). Notation pstmt := (print_stmt show).

  Definition opens (v : uexpr F) (k : nat) : Prop :=
    match leftmost v with
    | EName _ => k = UIdentifier | ENumber _ => k = UNumber | EString _ => k = UString | EBool b => k = if b then UTrue else UFalse | ENil => k = UNil
    | EUnary op _ => op = lit "#" /\ k = UHash \/ op = lit "~" /\ k = UTilde | ETable _ => k = ULeftBrace | EFunction _ _ _ => k = UFunction | _ => False
    end.
  Definition sopens (s : ustmt F) (k : nat) : Prop :=
    match s with
    | SExpr e | SAssign (e :: _) _ => opens e k | SAssign [] _ => False | SLocal _ _ => k = ULocal | SReturn _ => k = UReturn | SIf _ _ _ _ => k = UIf | SWhile _ _ => k = UWhile
    | SNumeric _ _ _ _ _ | SGeneric _ _ _ => k = UFor | SRepeat _ _ => k = URepeat | SFunction _ _ _ _ _ => k = UFunction | SBreak => k = UBreak | SDo _ => k = UDo
    | SGoto _ => k = UGoto | SLabel _ => k = UColonColon
    end.
  Lemma over_intro k : ~ In k (suffixes ++ flat_map snd operators) -> over k.
  Proof.
    intros N. split; [intros H; apply N, in_or_app; left; exact H|]. intros p right (ks & I & K). apply N, in_or_app. right. apply in_flat_map. eexists. split; [exact I|exact K].
  Qed.
  Lemma opens_function v : opens v UFunction -> function_first v.
  Proof. unfold opens, function_first. destruct (leftmost v); try discriminate; try easy. - destruct b; discriminate. - intros [[_ X]|[_ X]]; discriminate. Qed.
  (** neither a comma nor an equals sign nor a semicolon *)
  Definition proper (k : nat) : Prop := ~ In k [UComma; UEq; USemicolon].
  Lemma sopens_proper s k : sopens s k -> proper k.
  Proof.
    assert (G : forall v, opens v k -> proper k).
    { intros v. unfold opens, proper. destruct (leftmost v); try easy; try (intros ->; cbn; intuition discriminate). - destruct b; intros ->; cbn; intuition discriminate. - intros [[_ ->]|[_ ->]]; cbn; intuition discriminate. }
    destruct s; cbn [sopens]; try (intros ->; unfold proper; cbn; intuition discriminate); [|exact (G _)]. destruct targets; [easy|exact (G _)].
  Qed.
  Lemma sopens_over s k : sopens s k -> ~ continues s -> over k.
  Proof.
    assert (G : forall v, opens v k -> ~ match leftmost v with EString _ | ETable _ => True | EUnary op _ => op = lit "~" | _ => False end -> over k).
    { intros v. unfold opens. intros O N. apply over_intro. destruct (leftmost v); try easy; try (subst k; cbn; intuition discriminate); try (now destruct N). - destruct b; subst k; cbn; intuition discriminate. - destruct O as [[_ ->]|[O ->]]; [cbn; intuition discriminate|contradiction]. }
    destruct s; cbn [sopens continues]; try (intros -> _; apply over_intro; cbn; intuition discriminate); [|exact (G _)]. destruct targets; [easy|exact (G _)].
  Qed.

  Definition begins (k : nat) (e : list piece) : Prop := exists s e', e = (Some k, s) :: e'.
  Lemma begins_app k e w : begins k e -> begins k (e ++ w).
  Proof. intros (s & e' & ->). now exists s, (e' ++ w). Qed.
  Lemma begins_first k e k0 : begins k e -> first e k0 = k.
  Proof. intros (s & e' & ->). reflexivity. Qed.
  Lemma tok_one k s : tok k s [(Some k, s)].
  Proof. exists []. split; [reflexivity|constructor]. Qed.
  Lemma tok_more k s w : Forall trivia w -> tok k s ((Some k, s) :: w).
  Proof. intros H. now exists w. Qed.

  (** ** What is shown by induction *)
  Definition after (m : nat) (v : uexpr F) (c : Z) : Prop := calm c /\ (c = 46%Z -> 13 < m /\ ~ numeric v).
  Lemma quiet_after m v c : quiet c -> after m v c. Proof. intros [A B]. now split. Qed.
  Definition PE (l m : nat) (v : uexpr F) : Prop := exists e c k, rep e c (after m v) (pexpr v) /\ starter c /\ begins k e /\ opens v k /\
    forall w, Forall trivia w -> is_expr parse l m (e ++ w) v.
  Definition PEs (vs : list (uexpr F)) : Prop := forall v r, vs = v :: r -> exists e c k, rep e c quiet (commas (map pexpr vs)) /\ starter c /\ begins k e /\ opens v k /\
    forall w, Forall trivia w -> is_exprs parse (e ++ w) vs.
  Definition PFs (fs : list (ufield F)) : Prop := fs = [] \/ exists e c, rep e c quiet (commas (map (print_field show) fs)) /\ starter c /\ is_fields parse e fs.
  Definition closer (i : bool) (k : nat) : Prop := In k (if i then [UEnd; UElse; UElseif; UUntil] else [UEof; UEnd; UElse; UElseif; UUntil]).
  Definition PB (i : bool) (b : list (ustmt F)) : Prop := exists e, repo e anyc (lines (map pstmt b)) /\ (forall s r, b = s :: r -> exists k, begins k e /\ sopens s k) /\ (b = [] -> e = []) /\
    forall k, closer i k -> is_block parse k e b.
  Definition at_line (c : Z) : Prop := c = 10%Z.
  Definition PS (s : ustmt F) : Prop := exists e c k, rep e c at_line (pstmt s) /\ begins k e /\ sopens s k /\
    forall k w, Forall trivia w -> proper k -> (open_ended s -> over k) -> (s = SReturn [] -> In k [USemicolon; UEnd; UElse; UElseif; UUntil]) -> is_stmt parse k (e ++ w) s.
  Definition pelse (p : uexpr F * list (ustmt F)) : str := lit "elseif " ++ pexpr (fst p) ++ lit " then" ++ [10%Z] ++ lines (map pstmt (snd p)).
  Definition PAlt (es : list (uexpr F * list (ustmt F))) : Prop := forall r c t k el, rep r c at_line t -> begins k r -> In k [UEnd; UElse] -> (forall w, Forall trivia w -> is_alternatives parse (r ++ w) [] el) ->
    exists e c' k', rep e c' at_line (flat_map pelse es ++ t) /\ begins k' e /\ In k' [UEnd; UElse; UElseif] /\ forall w, Forall trivia w -> is_alternatives parse (e ++ w) es el.

  (** ** Expressions *)
  Ltac txt := rewrite <- ?app_assoc; reflexivity.
  Ltac group e' := match goal with |- ?P ?e _ => replace e with e' by (rewrite ?app_nil_r, <- ?app_assoc; reflexivity) end.

  Lemma keyword_ws s k : In (s, k) keywords -> exists c, rep [(Some k, s); ws] c nonblank (s ++ [32%Z]) /\ start c.
  Proof. intros I. destruct (keyword_rep s k I) as (c & R & Hc). exists c. split; [|exact Hc]. apply (rep_app [(Some k, s)] c calm s [ws] 32); [exact R|apply ws_rep|chars]. Qed.
  Lemma keyword_nl s k : In (s, k) keywords -> exists c, rep [(Some k, s); nl] c anyc (s ++ [10%Z]) /\ start c.
  Proof. intros I. destruct (keyword_rep s k I) as (c & R & Hc). exists c. split; [|exact Hc]. apply (rep_app [(Some k, s)] c calm s [nl] 10); [exact R|apply nl_rep|chars]. Qed.
  Lemma comma_ws : rep [(Some UComma, [44%Z]); ws] 44 nonblank (lit ", ").
  Proof. apply (rep_app [(Some UComma, [44%Z])] 44 anyc [44%Z] [ws] 32); [apply lone_rep; [unfold marks; member|cbn; lia]|apply ws_rep|exact I]. Qed.
  Lemma equals_ws : rep [ws; (Some UEq, [61%Z]); ws] 32 nonblank (lit " = ").
  Proof.
    apply (rep_app [ws] 32 nonblank [32%Z] [(Some UEq, [61%Z]); ws] 61 _ [61%Z; 32%Z]); [apply ws_rep| |chars]. apply (rep_app [(Some UEq, [61%Z])] 61 unjoined [61%Z] [ws] 32); [apply mark_rep; unfold marks; member|apply ws_rep|chars].
  Qed.

  Lemma pe_name s : plain_name s -> PE 14 14 (EName s).
  Proof.
    intros H. destruct (name_rep s H) as (c & R & Hc & E). exists [(Some UIdentifier, s)], c, UIdentifier. split; [eapply rep_stop; [exact R|intros d [X _]; exact X]|]. split; [left; exact Hc|]. split; [now exists s, []|]. split; [reflexivity|].
    intros w Hw. rewrite <- E at 2. apply XName. now apply tok_more.
  Qed.
  Lemma pe_number x : number (show x) [] -> parse (show x) = Some x -> PE 14 14 (ENumber x).
  Proof.
    intros N E. destruct (number_rep _ N) as (c & R & Hc). exists [(Some UNumber, show x)], c, UNumber. split; [eapply rep_stop; [exact R|intros d [X Y]; split; [exact X|intros ->; destruct (Y eq_refl) as [_ Z]; apply Z; now exists x]]|]. split; [right; left; exact Hc|]. split; [now exists (show x), []|]. split; [reflexivity|].
    intros w Hw. eapply XLiteral; [|apply tok_more; exact Hw]. apply LNumber. destruct R as (R & _). cbn [text_of_pieces flat_map snd] in R. rewrite app_nil_r in R. now rewrite R.
  Qed.
  Lemma pe_string cs : Forall is_scalar cs -> mild cs -> inside 34 cs -> PE 14 14 (EString (encode cs)).
  Proof.
    intros Sc M N. exists [(Some UString, 34%Z :: cs ++ [34%Z])], 34%Z, UString. split; [eapply rep_stop; [apply string_rep; assumption|intros; exact I]|]. split; [right; right; left; reflexivity|]. split; [do 2 eexists; reflexivity|]. split; [reflexivity|].
    intros w Hw. eapply XLiteral; [|apply tok_more; exact Hw]. apply LString. left. reflexivity.
  Qed.
  Lemma pe_keyword s k v : In (s, k) keywords -> pexpr v = s -> opens v k -> literal parse k s v -> PE 14 14 v.
  Proof.
    intros I E O L. destruct (keyword_rep s k I) as (c & R & Hc). exists [(Some k, s)], c, k. rewrite E. split; [eapply rep_stop; [exact R|intros d [X _]; exact X]|]. split; [left; exact Hc|]. split; [now exists s, []|]. split; [exact O|].
    intros w Hw. eapply XLiteral; [exact L|apply tok_more; exact Hw].
  Qed.
  Lemma pe_bool b : PE 14 14 (EBool b).
  Proof. destruct b; [eapply (pe_keyword (lit "true") UTrue)|eapply (pe_keyword (lit "false") UFalse)]; try reflexivity; try (unfold keywords; member); constructor. Qed.
  Lemma pe_nil : PE 14 14 ENil.
  Proof. eapply (pe_keyword (lit "nil") UNil); try reflexivity; [unfold keywords; member|constructor]. Qed.
  Lemma pe_member l m t s method : PE l m t -> 13 < m -> ~ numeric t -> plain_name s -> PE (min 13 l) 14 (EMember t s method).
  Proof.
    intros (e & c & k & R & Hc & B & O & X) Hm N H. destruct (name_rep s H) as (d & Rn & Hd & E).
    set (kd := if method then UColon else UDot). set (dot := if method then 58%Z else 46%Z).
    assert (Rd : rep [(Some kd, [dot])] dot unjoined [dot]) by (subst kd dot; destruct method; apply mark_rep; unfold marks; member).
    exists (e ++ [(Some kd, [dot])] ++ [(Some UIdentifier, s)]), c, k. split; [|split; [exact Hc|split; [now apply begins_app|split; [exact O|]]]].
    - cbn [print_expr]. eapply rep_text; [|instantiate (1 := pexpr t ++ [dot] ++ s); subst dot; destruct method; reflexivity].
      eapply rep_app; [exact R|eapply rep_app; [exact Rd|eapply rep_stop; [exact Rn|intros x [Y _]; exact Y]|now apply start_unjoined]|].
      split; [subst dot; destruct method; chars|intros _; now split].
    - intros w Hw. specialize (X [] (Forall_nil _)). rewrite app_nil_r in X. group (e ++ [(Some kd, [dot])] ++ ((Some UIdentifier, s) :: w)).
      replace method with (kd =? UColon) by (subst kd; destruct method; reflexivity). rewrite <- E at 2. eapply XMember; [exact X|exact Hm|subst kd; destruct method; member|apply tok_one|now apply tok_more].
  Qed.
  Lemma pe_unary s l m v : In s [lit "#"; lit "~"] -> PE l m v -> 11 <= l -> PE 14 (min 11 m) (EUnary s v).
  Proof.
    intros I (e & c & k & R & Hc & B & O & X) Hl.
    assert (G : exists d ks, s = [d] /\ rep [(Some ks, [d])] d unjoined [d] /\ In d [35; 126]%Z /\ In ks [UMinus; UNot; UHash; UTilde] /\ opens (EUnary s v) ks).
    { destruct I as [<-|[<-|[]]]; [exists 35%Z, UHash|exists 126%Z, UTilde]; (split; [reflexivity|]; split; [apply mark_rep; unfold marks; member|]; split; [member|]; split; [member|]); [left|right]; split; reflexivity. }
    destruct G as (d & ks & -> & Rs & Id & Ik & Ok). exists ([(Some ks, [d])] ++ e), d, ks. split; [|split; [|split; [now exists [d], e|split; [exact Ok|]]]].
    - cbn [print_expr]. eapply rep_app; [exact Rs|eapply rep_stop; [exact R|]|now apply starter_unjoined]. intros x [Y Z]. split; [exact Y|]. intros ->. destruct (Z eq_refl). lia.
    - right. right. destruct Id as [<-|[<-|[]]]; member.
    - intros w Hw. rewrite <- app_assoc. rewrite <- (encode_ascii [d]) at 2; [|cbn in Id; constructor; [lia|constructor]]. eapply XUnary; [exact Ik|apply tok_one|now apply X|exact Hl].
  Qed.
  Lemma level_low s p right : In (s, p, right) binaries -> p <= 12 /\ S (if right then p else S p) <= 13.
  Proof.
    assert (G : Forall (fun x : str * nat * bool => snd (fst x) <= 12 /\ S (if snd x then snd (fst x) else S (snd (fst x))) <= 13) binaries) by (unfold binaries; repeat (apply Forall_cons; [cbn [fst snd]; lia|]); apply Forall_nil).
    rewrite Forall_forall in G. intros I. exact (G _ I).
  Qed.
  Lemma pe_binary s p right l1 m1 v1 l2 m2 v2 : In (s, p, right) binaries -> PE l1 m1 v1 -> p < m1 -> PE l2 m2 v2 -> (if right then p else S p) <= l2 ->
    PE (min p l1) (min (if right then p else S p) m2) (EBinary v1 s v2).
  Proof.
    intros I (e1 & c1 & k1 & R1 & H1 & B1 & O1 & X1) Hm (e2 & c2 & k2 & R2 & H2 & B2 & O2 & X2) Hl. destruct (binary_rep s p right I) as (k & c & R & Hc & Op & E). pose proof (level_low s p right I) as Lv.
    exists (e1 ++ [ws] ++ [(Some k, s)] ++ [ws] ++ e2), c1, k1. split; [|split; [exact H1|split; [now apply begins_app|split; [exact O1|]]]].
    - cbn [print_expr]. eapply rep_app; [exact R1|eapply rep_app; [apply ws_rep|eapply rep_app; [exact R|eapply rep_app; [apply ws_rep|eapply rep_stop; [exact R2|]|]|]|]|].
      + intros d [Y Z]. split; [exact Y|]. intros D. destruct (Z D). lia.
      + now apply starter_nonblank.
      + reflexivity.
      + exact Hc.
      + split; [chars|discriminate].
    - intros w Hw. group ((e1 ++ [ws]) ++ [(Some k, s); ws] ++ (e2 ++ w)). rewrite <- E at 2. eapply XBinary; [exact Op|apply X1, trivia_ws|exact Hm|apply tok_more, trivia_ws|now apply X2|exact Hl].
  Qed.

  (** ** Lists *)
  Lemma pes_cons l m v vs : PE l m v -> PEs vs -> PEs (v :: vs).
  Proof.
    intros (e & c & k & R & Hc & B & O & X) P v' r' Eq. injection Eq as <- <-. destruct vs as [| v2 vs].
    - exists e, c, k. split; [eapply rep_stop; [exact R|intros d; apply quiet_after]|]. split; [exact Hc|]. split; [exact B|]. split; [exact O|]. intros w Hw. eapply XsOne. now apply X.
    - destruct (P v2 vs eq_refl) as (e2 & c2 & k2 & R2 & H2 & B2 & O2 & X2). exists (e ++ [(Some UComma, [44%Z]); ws] ++ e2), c, k. split; [|split; [exact Hc|split; [now apply begins_app|split; [exact O|]]]].
      + change (commas (map pexpr (v :: v2 :: vs))) with (pexpr v ++ lit ", " ++ commas (map pexpr (v2 :: vs))). eapply rep_app; [exact R|eapply rep_app; [apply comma_ws|exact R2|now apply starter_nonblank]|]. split; [chars|discriminate].
      + intros w Hw. group (e ++ [(Some UComma, [44%Z]); ws] ++ (e2 ++ w)). eapply XsMore; [|apply tok_more, trivia_ws|now apply X2]. specialize (X [] (Forall_nil _)). rewrite app_nil_r in X. exact X.
  Qed.
  Lemma lone c k : In ([c], k) marks -> ~ In c [61; 126; 60; 62; 46; 58; 47]%Z -> rep [(Some k, [c])] c anyc [c].
  Proof. apply lone_rep. Qed.
  Lemma pe_call l m f vs : PE l m f -> 13 < m -> PEs vs -> PE (min 13 l) 14 (ECall f vs).
  Proof.
    intros (e & c & k & R & Hc & B & O & X) Hm P. specialize (X [] (Forall_nil _)). rewrite app_nil_r in X.
    assert (Rp : rep [(Some ULeftParen, [40%Z])] 40 anyc [40%Z]) by (apply lone_rep; [unfold marks; member|cbn; lia]). assert (Rq : rep [(Some URightParen, [41%Z])] 41 anyc [41%Z]) by (apply lone_rep; [unfold marks; member|cbn; lia]).
    assert (A : exists a, rep a 40 anyc (lit "(" ++ commas (map pexpr vs) ++ lit ")") /\ forall w, Forall trivia w -> is_args parse (a ++ w) vs).
    { destruct vs as [| v vs].
      - exists ([(Some ULeftParen, [40%Z])] ++ [(Some URightParen, [41%Z])]). split; [eapply rep_app; [exact Rp|exact Rq|exact I]|]. intros w Hw. group ([(Some ULeftParen, [40%Z])] ++ ((Some URightParen, [41%Z]) :: w)). eapply ArgNone; [apply tok_one|now apply tok_more].
      - destruct (P v vs eq_refl) as (e2 & c2 & k2 & R2 & H2 & B2 & O2 & X2). exists ([(Some ULeftParen, [40%Z])] ++ e2 ++ [(Some URightParen, [41%Z])]). split.
        + eapply rep_app; [exact Rp|eapply rep_app; [exact R2|exact Rq|chars]|exact I].
        + intros w Hw. specialize (X2 [] (Forall_nil _)). rewrite app_nil_r in X2. group ([(Some ULeftParen, [40%Z])] ++ e2 ++ ((Some URightParen, [41%Z]) :: w)). eapply ArgSome; [apply tok_one|exact X2|now apply tok_more]. }
    destruct A as (a & Ra & Xa). exists (e ++ a), c, k. split; [|split; [exact Hc|split; [now apply begins_app|split; [exact O|]]]].
    - cbn [print_expr]. eapply rep_app; [exact R|eapply rep_stop; [exact Ra|intros; exact I]|]. split; [chars|discriminate].
    - intros w Hw. rewrite <- app_assoc. eapply XCall; [exact X|exact Hm|now apply Xa].
  Qed.

  Lemma pfs_cons t e1 c1 f fs : rep e1 c1 quiet t -> t = print_field show f -> starter c1 -> is_field parse e1 f -> PFs fs -> PFs (f :: fs).
  Proof.
    intros R -> Hc X [->|(e & c & R2 & H2 & X2)]; right.
    - exists e1, c1. split; [exact R|]. split; [exact Hc|]. now apply FsOne.
    - destruct fs as [| f2 fs]. { destruct R2 as (E & _ & (x & Y & _) & _). rewrite Y in E. cbn [map commas] in E. change (c :: x) with ([c] ++ x) in E. rewrite encode_app in E. apply app_eq_nil in E. destruct E as [E _]. exfalso. revert E. clear. unfold encode, encode_char. cbn. repeat destruct (_ <? _)%Z; discriminate. }
      exists (e1 ++ [(Some UComma, [44%Z]); ws] ++ e), c1. split; [|split; [exact Hc|]].
      + change (commas (map (print_field show) (f :: f2 :: fs))) with (print_field show f ++ lit ", " ++ commas (map (print_field show) (f2 :: fs))). eapply rep_app; [exact R|eapply rep_app; [apply comma_ws|exact R2|now apply starter_nonblank]|chars].
      + eapply FsMore; [exact X|member|apply tok_more, trivia_ws|exact X2].
  Qed.
  Lemma pfs_list l m v fs : PE l m v -> PFs fs -> PFs (FList v :: fs).
  Proof.
    intros (e & c & k & R & Hc & B & O & X) P. specialize (X [] (Forall_nil _)). rewrite app_nil_r in X. eapply pfs_cons; [eapply rep_stop; [exact R|intros d; apply quiet_after]|reflexivity|exact Hc|eapply FdList; exact X|exact P].
  Qed.
  Lemma pfs_named n l m v fs : plain_name n -> PE l m v -> PFs fs -> PFs (FNamed n v :: fs).
  Proof.
    intros H (e & c & k & R & Hc & B & O & X) P. specialize (X [] (Forall_nil _)). rewrite app_nil_r in X. destruct (name_rep n H) as (d & Rn & Hd & E).
    eapply (pfs_cons _ ([(Some UIdentifier, n)] ++ [ws; (Some UEq, [61%Z]); ws] ++ e) d).
    - eapply rep_app; [exact Rn|eapply rep_app; [apply equals_ws|eapply rep_stop; [exact R|intros x; apply quiet_after]|now apply starter_nonblank]|chars].
    - reflexivity.
    - left. exact Hd.
    - group ([(Some UIdentifier, n); ws] ++ [(Some UEq, [61%Z]); ws] ++ e). rewrite <- E at 2. eapply FdNamed; [apply tok_more, trivia_ws|apply tok_more, trivia_ws|exact X].
    - exact P.
  Qed.
  Lemma pe_table fs : PFs fs -> PE 14 14 (ETable fs).
  Proof.
    intros P. assert (Rp : rep [(Some ULeftBrace, [123%Z])] 123 anyc [123%Z]) by (apply lone_rep; [unfold marks; member|cbn; lia]). assert (Rq : rep [(Some URightBrace, [125%Z])] 125 anyc [125%Z]) by (apply lone_rep; [unfold marks; member|cbn; lia]).
    assert (A : exists e, repo e quiet (commas (map (print_field show) fs)) /\ is_fields parse e fs) by (destruct P as [->|(e & c & R & _ & X)]; [exists []; split; [now left|constructor]|exists e; split; [right; exists c; exact R|exact X]]).
    destruct A as (e & R & X). exists ([(Some ULeftBrace, [123%Z])] ++ e ++ [(Some URightBrace, [125%Z])]), 123%Z, ULeftBrace. split; [|split; [right; right; member|split; [do 2 eexists; reflexivity|split; [reflexivity|]]]].
    - cbn [print_expr]. eapply rep_stop; [eapply rep_mid; [exact Rp|intros; exact I|exact R|exact Rq|chars]|intros; exact I].
    - intros w Hw. apply XTable. group ([(Some ULeftBrace, [123%Z])] ++ e ++ ((Some URightBrace, [125%Z]) :: w)). eapply Table; [apply tok_one|exact X|now apply tok_more].
  Qed.

  (** ** Names and parameters *)
  Lemma names_rep sep x sw cx (S : Z -> Prop) t : rep ((Some sep, x) :: sw) cx S t -> Forall trivia sw -> calm cx -> (forall d, start d -> S d) ->
    forall ns, ns <> [] -> Forall plain_name ns -> exists e c, rep e c calm (separated t ns) /\ start c /\ begins UIdentifier e /\ forall w, Forall trivia w -> names sep (e ++ w) ns.
  Proof.
    intros R Tw Hx Hs. induction ns as [| n ns IH]; [easy|]. intros _ Hn. inversion Hn as [| ? ? H Hr]; subst. destruct (name_rep n H) as (c & Rn & Hc & E). destruct ns as [| n2 ns].
    - exists [(Some UIdentifier, n)], c. split; [exact Rn|]. split; [exact Hc|]. split; [do 2 eexists; reflexivity|]. intros w Hw. rewrite <- E at 2. apply NamesOne. now apply tok_more.
    - destruct (IH ltac:(discriminate) Hr) as (e & c2 & R2 & H2 & B2 & X2). exists ([(Some UIdentifier, n)] ++ ((Some sep, x) :: sw) ++ e), c. split; [|split; [exact Hc|split; [do 2 eexists; reflexivity|]]].
      + change (separated t (n :: n2 :: ns)) with (n ++ t ++ separated t (n2 :: ns)). eapply rep_app; [exact Rn|eapply rep_app; [exact R|exact R2|now apply Hs]|exact Hx].
      + intros w Hw. rewrite <- !app_assoc.
        rewrite <- E at 2. eapply NamesMore; [apply tok_one|now apply tok_more|now apply X2].
  Qed.
  Lemma commas_separated l : commas l = separated (lit ", ") l.
  Proof. induction l as [| x [| y l] IH]; [reflexivity|reflexivity|]. change (commas (x :: y :: l)) with (x ++ lit ", " ++ commas (y :: l)). rewrite IH. reflexivity. Qed.
  Lemma name_list ns : ns <> [] -> Forall plain_name ns -> exists e c, rep e c calm (commas ns) /\ start c /\ begins UIdentifier e /\ forall w, Forall trivia w -> names UComma (e ++ w) ns.
  Proof. rewrite commas_separated. eapply names_rep; [apply comma_ws|apply trivia_ws|chars|apply start_nonblank]. Qed.
  Lemma dotted_names ns : ns <> [] -> Forall plain_name ns -> exists e c, rep e c calm (separated (lit ".") ns) /\ start c /\ begins UIdentifier e /\ forall w, Forall trivia w -> names UDot (e ++ w) ns.
  Proof. eapply names_rep; [apply (mark_rep 46 [] UDot); unfold marks; member|constructor|chars|apply start_unjoined]. Qed.
  Lemma params_rep ps va : Forall plain_name ps -> exists e, repo e (eq 41%Z) (print_params ps va) /\ parameters e ps va.
  Proof.
    intros H. assert (Rd : rep [(Some UDotDotDot, [46; 46; 46]%Z)] 46 (eq 41%Z) (lit "...")) by (eapply rep_stop; [apply (mark_rep 46 [46; 46]%Z UDotDotDot); unfold marks; member|intros d <-; chars]).
    unfold print_params. destruct ps as [| p ps].
    - destruct va; [exists [(Some UDotDotDot, [46; 46; 46]%Z)]; split; [right; exists 46%Z; exact Rd|eapply ParVararg, tok_one]|exists []; split; [left; split; reflexivity|constructor]].
    - destruct (name_list (p :: ps) ltac:(discriminate) H) as (e & c & R & Hc & B & X). specialize (X [] (Forall_nil _)). rewrite app_nil_r in X. destruct va.
      + exists (e ++ [(Some UComma, [44%Z]); ws] ++ [(Some UDotDotDot, [46; 46; 46]%Z)]). split; [|eapply ParBoth; [exact X|apply tok_more, trivia_ws|apply tok_one]]. right. exists c. eapply rep_app; [exact R|eapply rep_app; [apply comma_ws|exact Rd|chars]|chars].
      + exists e. rewrite app_nil_r. split; [right; exists c; eapply rep_stop; [exact R|intros d <-; chars]|now apply ParNames].
  Qed.
  Lemma func_rep ps va b : Forall plain_name ps -> PB true b ->
    exists e, rep e 40 calm (lit "(" ++ print_params ps va ++ lit ")" ++ [10%Z] ++ lines (map pstmt b) ++ lit "end") /\ forall w, Forall trivia w -> is_func parse (e ++ w) ps va b.
  Proof.
    intros H (eb & Rb & _ & _ & Xb). destruct (params_rep ps va H) as (e & R & X). destruct (keyword_rep (lit "end") UEnd ltac:(unfold keywords; member)) as (c & Re & Hc).
    assert (Rp : rep [(Some ULeftParen, [40%Z])] 40 anyc [40%Z]) by (apply lone_rep; [unfold marks; member|cbn; lia]). assert (Rq : rep [(Some URightParen, [41%Z]); nl] 41 anyc [41%Z; 10%Z]) by (eapply (rep_app [_] _ _ [_]); [apply lone_rep; [unfold marks; member|cbn; lia]|apply nl_rep|exact I]).
    exists ([(Some ULeftParen, [40%Z])] ++ e ++ [(Some URightParen, [41%Z]); nl] ++ eb ++ [(Some UEnd, lit "end")]). split.
    - eapply rep_text; [eapply rep_mid; [exact Rp|intros; exact I|exact R|eapply rep_mid; [exact Rq|intros; exact I|exact Rb|exact Re|exact I]|reflexivity]|reflexivity].
    - intros w Hw. replace ((_ ++ e ++ _) ++ w) with ([(Some ULeftParen, [40%Z])] ++ e ++ [(Some URightParen, [41%Z]); nl] ++ eb ++ ((Some UEnd, lit "end") :: w)) by (rewrite <- !app_assoc; reflexivity).
      eapply Func; [apply tok_one|exact X|apply tok_more, trivia_nl|apply Xb; left; reflexivity|now apply tok_more].
  Qed.
  Lemma pe_function ps va b : Forall plain_name ps -> PB true b -> PE 14 14 (EFunction ps va b).
  Proof.
    intros H Pb. destruct (func_rep ps va b H Pb) as (e & R & X). destruct (keyword_rep (lit "function") UFunction ltac:(unfold keywords; member)) as (c & Rf & Hc).
    exists ([(Some UFunction, lit "function")] ++ e), c, UFunction. split; [|split; [left; exact Hc|split; [do 2 eexists; reflexivity|split; [reflexivity|]]]].
    - eapply rep_stop; [eapply rep_text; [eapply rep_app; [exact Rf|exact R|chars]|reflexivity]|intros d [Y _]; exact Y].
    - intros w Hw. rewrite <- app_assoc. eapply XFunction; [apply tok_one|now apply X].
  Qed.

  (** ** Blocks *)
  Lemma pb_nil i : PB i [].
  Proof. exists []. split; [left; split; reflexivity|]. split; [discriminate|]. split; [reflexivity|]. intros k _. constructor. Qed.
  Lemma closer_facts i k : closer i k -> proper k /\ over k.
  Proof.
    intros H. assert (I : In k [UEof; UEnd; UElse; UElseif; UUntil]) by (destruct i; [right; exact H|exact H]).
    repeat (destruct I as [<-|I]; [split; [unfold proper; cbn; intuition discriminate|apply over_intro; cbn; intuition discriminate]|]). contradiction.
  Qed.
  Lemma pb_cons i s b : PS s -> PB i b -> (open_ended s -> forall s', hd_error b = Some s' -> ~ continues s') -> (s = SReturn [] -> b = [] /\ i = true) -> PB i (s :: b).
  Proof.
    intros (e & c & k & R & B & O & X) (eb & Rb & Kb & Nb & Xb) Ho Hr. exists ((e ++ [nl]) ++ eb). split; [|split; [|split; [discriminate|]]].
    - right. exists c. assert (R' : rep (e ++ [nl]) c anyc (pstmt s ++ [10%Z])) by (eapply rep_app; [exact R|apply nl_rep|reflexivity]).
      change (lines (map pstmt (s :: b))) with ((pstmt s ++ [10%Z]) ++ lines (map pstmt b)). destruct Rb as [[-> ->]|(cb & Rb)]; [rewrite !app_nil_r; exact R'|eapply rep_app; [exact R'|exact Rb|exact I]].
    - intros s' r Eq. injection Eq as <- <-. exists k. split; [now apply begins_app, begins_app|exact O].
    - intros k0 C. apply BMore; [|now apply Xb]. destruct (closer_facts i k0 C) as [Pr Ov]. destruct b as [| s2 b].
      + rewrite (Nb eq_refl). change (first [] k0) with k0. apply X; [apply trivia_nl|exact Pr|intros _; exact Ov|]. intros Es. destruct (Hr Es) as [_ ->]. right. exact C.
      + destruct (Kb s2 b eq_refl) as (k2 & B2 & O2). rewrite (begins_first k2 eb k0 B2). apply X; [apply trivia_nl|eapply sopens_proper; exact O2| |intros Es; destruct (Hr Es); discriminate].
        intros Oe. eapply sopens_over; [exact O2|]. exact (Ho Oe s2 eq_refl).
  Qed.

  (** ** Statements *)
  Ltac kwd s k R H := let c := fresh "c" in destruct (keyword_ws s k ltac:(unfold keywords; member)) as (c & R & H).
  Lemma semi k : proper k -> is_semicolon k [].
  Proof. intros H. apply SemiNone. intros ->. apply H. member. Qed.
  Lemma proper_not k ks : proper k -> incl ks [UComma; UEq; USemicolon] -> ~ In k ks.
  Proof. intros H J X. apply H, (J _ X). Qed.
  Lemma incl1 : incl [UComma] [UComma; UEq; USemicolon]. Proof. intros x [<-|[]]. member. Qed.
  Lemma incl2 : incl [UComma; UEq] [UComma; UEq; USemicolon]. Proof. intros x [<-|[<-|[]]]; member. Qed.
  Lemma not_comma k : proper k -> k <> UComma. Proof. intros H ->. apply H. member. Qed.

  Lemma ps_local ns vs : ns <> [] -> Forall plain_name ns -> PEs vs -> PS (SLocal ns vs).
  Proof.
    intros N H P. kwd (lit "local") ULocal R Hc. destruct (name_list ns N H) as (e & d & Rn & Hd & B & X). destruct vs as [| v vs].
    - exists ([(Some ULocal, lit "local"); ws] ++ e), c, ULocal. split; [|split; [do 2 eexists; reflexivity|split; [reflexivity|]]].
      + cbn [print_stmt]. rewrite app_nil_r. eapply rep_app; [exact R|eapply rep_stop; [exact Rn|intros x ->; chars]|now apply start_nonblank].
      + intros k w Hw Pr _ _. group ([(Some ULocal, lit "local"); ws] ++ (e ++ w) ++ []). eapply TLocal; [apply tok_more, trivia_ws|now apply X|now apply semi|]. exact (proper_not _ _ Pr incl2).
    - destruct (P v vs eq_refl) as (e2 & c2 & k2 & R2 & H2 & B2 & O2 & X2). exists ([(Some ULocal, lit "local"); ws] ++ e ++ [ws; (Some UEq, [61%Z]); ws] ++ e2), c, ULocal. split; [|split; [do 2 eexists; reflexivity|split; [reflexivity|]]].
      + cbn [print_stmt]. eapply rep_app; [exact R|eapply rep_app; [exact Rn|eapply rep_app; [apply equals_ws|eapply rep_stop; [exact R2|intros x ->; chars]|now apply starter_nonblank]|chars]|now apply start_nonblank].
      + intros k w Hw Pr Ov _. group ([(Some ULocal, lit "local"); ws] ++ (e ++ [ws]) ++ [(Some UEq, [61%Z]); ws] ++ (e2 ++ w) ++ []).
        eapply TLocalValues; [apply tok_more, trivia_ws|apply X, trivia_ws|apply tok_more, trivia_ws|now apply X2|now apply semi|now apply Ov|now apply not_comma].
  Qed.
  Lemma ps_assign t ts vs : ~ function_first t -> PEs (t :: ts) -> vs <> [] -> PEs vs -> PS (SAssign (t :: ts) vs).
  Proof.
    intros Nf P N P2. destruct (P t ts eq_refl) as (e & c & k & R & Hc & B & O & X). destruct vs as [| v vs]; [easy|]. destruct (P2 v vs eq_refl) as (e2 & c2 & k2 & R2 & H2 & B2 & O2 & X2).
    exists (e ++ [ws; (Some UEq, [61%Z]); ws] ++ e2), c, k. split; [|split; [now apply begins_app|split; [exact O|]]].
    - change (pstmt (SAssign (t :: ts) (v :: vs))) with (commas (map pexpr (t :: ts)) ++ lit " = " ++ commas (map pexpr (v :: vs))).
      eapply rep_app; [exact R|eapply rep_app; [apply equals_ws|eapply rep_stop; [exact R2|intros x ->; chars]|now apply starter_nonblank]|chars].
    - intros k0 w Hw Pr Ov _. group ((e ++ [ws]) ++ [(Some UEq, [61%Z]); ws] ++ (e2 ++ w) ++ []).
      eapply TAssign; [apply X, trivia_ws| |apply tok_more, trivia_ws|now apply X2|now apply semi|now apply Ov|now apply not_comma].
      rewrite (begins_first k); [|now apply begins_app]. intros ->. apply Nf. now apply opens_function.
  Qed.
  Lemma ps_expr l m v : ~ function_first v -> PE l m v -> PS (SExpr v).
  Proof.
    intros Nf (e & c & k & R & Hc & B & O & X). exists e, c, k. split; [eapply rep_stop; [exact R|intros x ->; apply quiet_after; chars]|]. split; [exact B|]. split; [exact O|].
    intros k0 w Hw Pr Ov _. group ((e ++ w) ++ []). eapply TExpr; [now apply X| |now apply semi|now apply Ov|exact (proper_not _ _ Pr incl2)].
    rewrite (begins_first k); [|now apply begins_app]. intros ->. apply Nf. now apply opens_function.
  Qed.
  Lemma ps_return vs : PEs vs -> PS (SReturn vs).
  Proof.
    intros P. kwd (lit "return") UReturn R Hc. destruct vs as [| v vs].
    - exists [(Some UReturn, lit "return"); ws], c, UReturn. split; [cbn [print_stmt map commas]; eapply rep_stop; [exact R|intros x ->; chars]|]. split; [do 2 eexists; reflexivity|]. split; [reflexivity|].
      intros k w Hw Pr _ Hk. group (([(Some UReturn, lit "return"); ws] ++ w) ++ []). eapply TReturn; [exists (ws :: w); split; [reflexivity|constructor; [left; reflexivity|exact Hw]]|now apply semi|]. now apply Hk.
    - destruct (P v vs eq_refl) as (e2 & c2 & k2 & R2 & H2 & B2 & O2 & X2). exists ([(Some UReturn, lit "return"); ws] ++ e2), c, UReturn. split; [|split; [do 2 eexists; reflexivity|split; [reflexivity|]]].
      + eapply rep_app; [exact R|eapply rep_stop; [exact R2|intros x ->; chars]|now apply starter_nonblank].
      + intros k w Hw Pr Ov _. group ([(Some UReturn, lit "return"); ws] ++ (e2 ++ w) ++ []). eapply TReturnValues; [apply tok_more, trivia_ws|now apply X2|now apply semi|now apply Ov|now apply not_comma].
  Qed.

  (** [if … then …], [elseif … then …], [while … do …] *)
  Lemma headed_block s k s2 k2 l m v b tail ct St tt : In (s, k) keywords -> In (s2, k2) keywords -> PE l m v -> PB true b -> rep tail ct St tt ->
    exists ec eb c, rep ([(Some k, s); ws] ++ (ec ++ [ws]) ++ [(Some k2, s2); nl] ++ eb ++ tail) c St ((s ++ [32%Z]) ++ pexpr v ++ [32%Z] ++ (s2 ++ [10%Z]) ++ lines (map pstmt b) ++ tt) /\ start c /\
      (forall w, Forall trivia w -> is_expr parse l m (ec ++ w) v) /\ (forall k, closer true k -> is_block parse k eb b).
  Proof.
    intros I1 I2 (ec & c & kc & R & Hc & B & O & X) (eb & Rb & _ & _ & Xb) Rt. destruct (keyword_ws s k I1) as (c1 & R1 & H1). destruct (keyword_nl s2 k2 I2) as (c2 & R2 & H2).
    exists ec, eb, c1. split; [|split; [exact H1|split; [exact X|exact Xb]]]. rewrite <- (app_assoc ec).
    eapply rep_app; [exact R1|eapply rep_app; [exact R|eapply rep_app; [apply ws_rep|eapply rep_mid; [exact R2|intros; exact I|exact Rb|exact Rt|exact I]|now apply start_nonblank]|]|now apply starter_nonblank]. split; [chars|discriminate].
  Qed.
  Lemma palt_nil : PAlt [].
  Proof. intros r c t k el R B Ik X. exists r, c, k. split; [exact R|]. split; [exact B|]. split; [destruct Ik as [<-|[<-|[]]]; member|exact X]. Qed.
  Lemma closer_of k : In k [UEnd; UElse; UElseif] -> closer true k.
  Proof. intros [<-|[<-|[<-|[]]]]; unfold closer; member. Qed.
  Lemma palt_cons l m v b es : PE l m v -> PB true b -> PAlt es -> PAlt ((v, b) :: es).
  Proof.
    intros Pv Pb Pe r c t k el R B Ik X. destruct (Pe r c t k el R B Ik X) as (e & ce & ke & Re & Be & Ie & Xe).
    destruct (headed_block (lit "elseif") UElseif (lit "then") UThen l m v b e ce at_line _ ltac:(unfold keywords; member) ltac:(unfold keywords; member) Pv Pb Re) as (ec & eb & c0 & R0 & H0 & X0 & Xb).
    eexists _, c0, UElseif. split; [eapply rep_text; [exact R0|]|split; [do 2 eexists; reflexivity|split; [member|]]].
    - cbn [flat_map]. unfold pelse at 2. cbn [fst snd]. rewrite <- !app_assoc. reflexivity.
    - intros w Hw. match goal with |- ?P ?e0 _ _ => replace e0 with ([(Some UElseif, lit "elseif"); ws] ++ (ec ++ [ws]) ++ [(Some UThen, lit "then"); nl] ++ eb ++ (e ++ w)) by (rewrite <- !app_assoc; reflexivity) end.
      eapply AltElseif; [apply tok_more, trivia_ws|apply X0, trivia_ws|apply tok_more, trivia_nl| |now apply Xe]. rewrite (begins_first ke); [|now apply begins_app]. apply Xb. now apply closer_of.
  Qed.
  Lemma end_rep : exists c, rep [(Some UEnd, lit "end")] c at_line (lit "end").
  Proof. destruct (keyword_rep (lit "end") UEnd ltac:(unfold keywords; member)) as (c & R & _). exists c. eapply rep_stop; [exact R|intros x ->; chars]. Qed.
  Lemma ps_if_rest l m v b es t k c el r : PE l m v -> PB true b -> PAlt es -> rep r c at_line t -> begins k r -> In k [UEnd; UElse] -> (forall w, Forall trivia w -> is_alternatives parse (r ++ w) [] el) ->
    pstmt (SIf v b es el) = lit "if " ++ pexpr v ++ lit " then" ++ [10%Z] ++ lines (map pstmt b) ++ flat_map pelse es ++ t -> PS (SIf v b es el).
  Proof.
    intros Pv Pb Pe R B Ik X Tx. destruct (Pe r c t k el R B Ik X) as (e & ce & ke & Re & Be & Ie & Xe).
    destruct (headed_block (lit "if") UIf (lit "then") UThen l m v b e ce at_line _ ltac:(unfold keywords; member) ltac:(unfold keywords; member) Pv Pb Re) as (ec & eb & c0 & R0 & H0 & X0 & Xb).
    eexists _, c0, UIf. split; [eapply rep_text; [exact R0|rewrite Tx; reflexivity]|split; [do 2 eexists; reflexivity|split; [reflexivity|]]].
    intros k0 w Hw _ _ _. group ([(Some UIf, lit "if"); ws] ++ (ec ++ [ws]) ++ [(Some UThen, lit "then"); nl] ++ eb ++ (e ++ w)).
    eapply TIf; [apply tok_more, trivia_ws|apply X0, trivia_ws|apply tok_more, trivia_nl| |now apply Xe]. rewrite (begins_first ke); [|now apply begins_app]. apply Xb. now apply closer_of.
  Qed.
  Lemma ps_if l m v b es : PE l m v -> PB true b -> PAlt es -> PS (SIf v b es None).
  Proof.
    intros Pv Pb Pe. destruct end_rep as (c & R). eapply (ps_if_rest l m v b es _ UEnd c None _ Pv Pb Pe R); [do 2 eexists; reflexivity|member| |reflexivity]. intros w Hw. eapply AltNone. now apply tok_more.
  Qed.
  Lemma ps_if_else l m v b es d : PE l m v -> PB true b -> PAlt es -> PB true d -> PS (SIf v b es (Some d)).
  Proof.
    intros Pv Pb Pe (ed & Rd & _ & _ & Xd). destruct end_rep as (c & R). destruct (keyword_nl (lit "else") UElse ltac:(unfold keywords; member)) as (c2 & R2 & H2).
    assert (Rr : rep ([(Some UElse, lit "else"); nl] ++ ed ++ [(Some UEnd, lit "end")]) c2 at_line ((lit "else" ++ [10%Z]) ++ lines (map pstmt d) ++ lit "end")) by (eapply rep_mid; [exact R2|intros; exact I|exact Rd|exact R|exact I]).
    eapply (ps_if_rest l m v b es _ UElse c2 (Some d) _ Pv Pb Pe Rr); [do 2 eexists; reflexivity|member| |cbn [print_stmt]; fold pelse; rewrite <- !app_assoc; reflexivity].
    intros w Hw. match goal with |- ?P ?e0 _ _ => replace e0 with ([(Some UElse, lit "else"); nl] ++ ed ++ ((Some UEnd, lit "end") :: w)) by (rewrite <- !app_assoc; reflexivity) end. eapply AltElse; [apply tok_more, trivia_nl|apply Xd; unfold closer; member|now apply tok_more].
  Qed.
  Lemma ps_while l m v b : PE l m v -> PB true b -> PS (SWhile v b).
  Proof.
    intros Pv Pb. destruct end_rep as (c & R). destruct (headed_block (lit "while") UWhile (lit "do") UDo l m v b _ c at_line _ ltac:(unfold keywords; member) ltac:(unfold keywords; member) Pv Pb R) as (ec & eb & c0 & R0 & H0 & X0 & Xb).
    eexists _, c0, UWhile. split; [eapply rep_text; [exact R0|reflexivity]|split; [do 2 eexists; reflexivity|split; [reflexivity|]]].
    intros k0 w Hw _ _ _. group ([(Some UWhile, lit "while"); ws] ++ (ec ++ [ws]) ++ [(Some UDo, lit "do"); nl] ++ eb ++ ((Some UEnd, lit "end") :: w)).
    eapply TWhile; [apply tok_more, trivia_ws|apply X0, trivia_ws|apply tok_more, trivia_nl|apply Xb; unfold closer; member|now apply tok_more].
  Qed.
  (** [do …] to [end], with a blank before it *)
  Lemma do_rep b : PB true b -> exists eb, rep ([ws] ++ [(Some UDo, lit "do"); nl] ++ eb ++ [(Some UEnd, lit "end")]) 32 at_line (lit " do" ++ [10%Z] ++ lines (map pstmt b) ++ lit "end") /\ is_block parse UEnd eb b.
  Proof.
    intros (eb & Rb & _ & _ & Xb). destruct end_rep as (c & R). destruct (keyword_nl (lit "do") UDo ltac:(unfold keywords; member)) as (c2 & R2 & H2). exists eb. split; [|apply Xb; unfold closer; member].
    eapply rep_text; [eapply rep_app; [apply ws_rep|eapply rep_mid; [exact R2|intros; exact I|exact Rb|exact R|exact I]|now apply start_nonblank]|reflexivity].
  Qed.
  Lemma ps_do b : PB true b -> PS (SDo b).
  Proof.
    intros (eb & Rb & _ & _ & Xb). destruct end_rep as (c & R). destruct (keyword_nl (lit "do") UDo ltac:(unfold keywords; member)) as (c2 & R2 & H2).
    exists ([(Some UDo, lit "do"); nl] ++ eb ++ [(Some UEnd, lit "end")]), c2, UDo. split; [eapply rep_text; [eapply rep_mid; [exact R2|intros; exact I|exact Rb|exact R|exact I]|reflexivity]|split; [do 2 eexists; reflexivity|split; [reflexivity|]]].
    intros k0 w Hw _ _ _. group ([(Some UDo, lit "do"); nl] ++ eb ++ ((Some UEnd, lit "end") :: w)). eapply TDo; [apply tok_more, trivia_nl|apply Xb; unfold closer; member|now apply tok_more].
  Qed.
  Lemma ps_numeric n l1 m1 v1 l2 m2 v2 st b : plain_name n -> PE l1 m1 v1 -> PE l2 m2 v2 -> (forall v, st = Some v -> exists l m, PE l m v) -> PB true b -> PS (SNumeric n v1 v2 st b).
  Proof.
    intros H (e1 & c1 & k1 & R1 & H1 & _ & _ & X1) (e2 & c2 & k2 & R2 & H2 & _ & _ & X2) Hst Pb. kwd (lit "for") UFor R Hc. destruct (name_rep n H) as (cn & Rn & Hn & E). destruct (do_rep b Pb) as (eb & Rd & Xb).
    assert (Rq : forall m v d, d = 44%Z \/ d = 32%Z -> after m v d) by (intros m v d Hd; apply quiet_after; destruct Hd as [->| ->]; chars).
    set (tail := [ws] ++ [(Some UDo, lit "do"); nl] ++ eb ++ [(Some UEnd, lit "end")]) in Rd. set (t := lit " do" ++ [10%Z] ++ lines (map pstmt b) ++ lit "end") in Rd.
    assert (S : exists es cs, rep (e2 ++ es ++ tail) c2 at_line (pexpr v2 ++ match st with None => [] | Some x => lit ", " ++ pexpr x end ++ t) /\
      is_step parse (cs ++ (match st with None => [] | Some _ => [ws] end)) st /\ es = cs /\ (st = None -> cs = [])).
    { destruct st as [v3|].
      - destruct (Hst v3 eq_refl) as (l3 & m3 & e3 & c3 & k3 & R3 & H3 & _ & _ & X3). exists ([(Some UComma, [44%Z]); ws] ++ e3), ([(Some UComma, [44%Z]); ws] ++ e3). split; [|split; [|split; [reflexivity|discriminate]]].
        + rewrite <- !app_assoc. eapply rep_app; [exact R2|eapply rep_app; [apply comma_ws|eapply rep_app; [exact R3|exact Rd|apply Rq; now right]|now apply starter_nonblank]|apply Rq; now left].
        + rewrite <- app_assoc. eapply StepSome; [apply tok_more, trivia_ws|apply X3, trivia_ws].
      - exists [], []. split; [|split; [constructor|split; reflexivity]]. eapply rep_app; [exact R2|exact Rd|apply Rq; now right]. }
    destruct S as (es & cs & Rs & Xs & -> & Ns).
    exists ([(Some UFor, lit "for"); ws] ++ [(Some UIdentifier, n)] ++ [ws; (Some UEq, [61%Z]); ws] ++ e1 ++ [(Some UComma, [44%Z]); ws] ++ e2 ++ cs ++ tail), c, UFor. split; [|split; [do 2 eexists; reflexivity|split; [reflexivity|]]].
    - eapply rep_text; [eapply rep_app; [exact R|eapply rep_app; [exact Rn|eapply rep_app; [apply equals_ws|eapply rep_app; [exact R1|eapply rep_app; [apply comma_ws|exact Rs|now apply starter_nonblank]|apply Rq; now left]|now apply starter_nonblank]|chars]|now apply start_nonblank]|].
      subst t. cbn [print_stmt]. rewrite <- ?app_assoc. reflexivity.
    - intros k0 w Hw _ _ _. specialize (X1 [] (Forall_nil _)). rewrite app_nil_r in X1. rewrite <- E at 2. destruct st as [v3|].
      + unfold tail. group ([(Some UFor, lit "for"); ws] ++ [(Some UIdentifier, n); ws] ++ [(Some UEq, [61%Z]); ws] ++ e1 ++ [(Some UComma, [44%Z]); ws] ++ e2 ++ (cs ++ [ws]) ++ [(Some UDo, lit "do"); nl] ++ eb ++ ((Some UEnd, lit "end") :: w)).
        specialize (X2 [] (Forall_nil _)). rewrite app_nil_r in X2. eapply TNumeric; [apply tok_more, trivia_ws|apply tok_more, trivia_ws|apply tok_more, trivia_ws|exact X1|apply tok_more, trivia_ws|exact X2|exact Xs|apply tok_more, trivia_nl|exact Xb|now apply tok_more].
      + rewrite (Ns eq_refl) in *. unfold tail. group ([(Some UFor, lit "for"); ws] ++ [(Some UIdentifier, n); ws] ++ [(Some UEq, [61%Z]); ws] ++ e1 ++ [(Some UComma, [44%Z]); ws] ++ (e2 ++ [ws]) ++ [] ++ [(Some UDo, lit "do"); nl] ++ eb ++ ((Some UEnd, lit "end") :: w)).
        eapply TNumeric; [apply tok_more, trivia_ws|apply tok_more, trivia_ws|apply tok_more, trivia_ws|exact X1|apply tok_more, trivia_ws|apply X2, trivia_ws|constructor|apply tok_more, trivia_nl|exact Xb|now apply tok_more].
  Qed.
  Lemma ps_generic ns vs b : ns <> [] -> Forall plain_name ns -> vs <> [] -> PEs vs -> PB true b -> PS (SGeneric ns vs b).
  Proof.
    intros N H Nv P Pb. destruct vs as [| v vs]; [easy|]. destruct (P v vs eq_refl) as (e2 & c2 & k2 & R2 & H2 & _ & _ & X2). kwd (lit "for") UFor R Hc. destruct (name_list ns N H) as (e & cn & Rn & Hn & _ & X). destruct (do_rep b Pb) as (eb & Rd & Xb).
    kwd (lit "in") UIn Ri Hi. exists ([(Some UFor, lit "for"); ws] ++ e ++ [ws] ++ [(Some UIn, lit "in"); ws] ++ e2 ++ [ws] ++ [(Some UDo, lit "do"); nl] ++ eb ++ [(Some UEnd, lit "end")]), c, UFor. split; [|split; [do 2 eexists; reflexivity|split; [reflexivity|]]].
    - eapply rep_text; [eapply rep_app; [exact R|eapply rep_app; [exact Rn|eapply rep_app; [apply ws_rep|eapply rep_app; [exact Ri|eapply rep_app; [exact R2|exact Rd|chars]|now apply starter_nonblank]|now apply start_nonblank]|chars]|now apply start_nonblank]|].
      cbn [print_stmt]. rewrite <- ?app_assoc. reflexivity.
    - intros k0 w Hw _ _ _. group ([(Some UFor, lit "for"); ws] ++ (e ++ [ws]) ++ [(Some UIn, lit "in"); ws] ++ (e2 ++ [ws]) ++ [(Some UDo, lit "do"); nl] ++ eb ++ ((Some UEnd, lit "end") :: w)).
      eapply TGeneric; [apply tok_more, trivia_ws|apply X, trivia_ws|apply tok_more, trivia_ws|apply X2, trivia_ws|apply tok_more, trivia_nl|exact Xb|now apply tok_more].
  Qed.
  Lemma ps_repeat b l m v : PB true b -> PE l m v -> PS (SRepeat b v).
  Proof.
    intros (eb & Rb & _ & _ & Xb) (e & c & k & R & H & _ & _ & X). destruct (keyword_nl (lit "repeat") URepeat ltac:(unfold keywords; member)) as (c1 & R1 & H1). destruct (keyword_ws (lit "until") UUntil ltac:(unfold keywords; member)) as (c2 & R2 & H2).
    exists ([(Some URepeat, lit "repeat"); nl] ++ eb ++ [(Some UUntil, lit "until"); ws] ++ e), c1, URepeat. split; [|split; [do 2 eexists; reflexivity|split; [reflexivity|]]].
    - eapply rep_text; [eapply rep_mid; [exact R1|intros; exact I|exact Rb|eapply rep_app; [exact R2|eapply rep_stop; [exact R|intros x ->; apply quiet_after; chars]|now apply starter_nonblank]|exact I]|reflexivity].
    - intros k0 w Hw _ Ov _. group ([(Some URepeat, lit "repeat"); nl] ++ eb ++ [(Some UUntil, lit "until"); ws] ++ (e ++ w)). eapply TRepeat; [apply tok_more, trivia_nl|apply Xb; unfold closer; member|apply tok_more, trivia_ws|now apply X|now apply Ov].
  Qed.
  Lemma ps_declaration ns ps va b : ns <> [] -> Forall plain_name ns -> Forall plain_name ps -> PB true b -> PS (SFunction ns None ps va b).
  Proof.
    intros N H Hp Pb. destruct (dotted_names ns N H) as (e & c & R & Hc & _ & X). destruct (func_rep ps va b Hp Pb) as (ef & Rf & Xf). kwd (lit "function") UFunction R1 H1.
    exists ([(Some UFunction, lit "function"); ws] ++ e ++ ef), c0, UFunction. split; [|split; [do 2 eexists; reflexivity|split; [reflexivity|]]].
    - eapply rep_text; [eapply rep_app; [exact R1|eapply rep_app; [exact R|eapply rep_stop; [exact Rf|intros x ->; chars]|chars]|now apply start_nonblank]|reflexivity].
    - intros k0 w Hw _ _ _. group ([(Some UFunction, lit "function"); ws] ++ e ++ (ef ++ w)). specialize (X [] (Forall_nil _)). rewrite app_nil_r in X. eapply TFunction; [apply tok_more, trivia_ws|exact X|now apply Xf].
  Qed.
  Lemma ps_break : PS SBreak.
  Proof.
    destruct (keyword_rep (lit "break") UBreak ltac:(unfold keywords; member)) as (c & R & _). exists [(Some UBreak, lit "break")], c, UBreak. split; [eapply rep_stop; [exact R|intros x ->; chars]|]. split; [do 2 eexists; reflexivity|]. split; [reflexivity|].
    intros k w Hw _ _ _. eapply TBreak. now apply tok_more.
  Qed.
  Lemma ps_goto s : plain_name s -> PS (SGoto s).
  Proof.
    intros H. kwd (lit "goto") UGoto R Hc. destruct (name_rep s H) as (cn & Rn & Hn & E). exists ([(Some UGoto, lit "goto"); ws] ++ [(Some UIdentifier, s)]), c, UGoto. split; [|split; [do 2 eexists; reflexivity|split; [reflexivity|]]].
    - eapply rep_text; [eapply rep_app; [exact R|eapply rep_stop; [exact Rn|intros x ->; chars]|now apply start_nonblank]|reflexivity].
    - intros k w Hw _ _ _. rewrite <- E at 2. group ([(Some UGoto, lit "goto"); ws] ++ ((Some UIdentifier, s) :: w)). eapply TGoto; [apply tok_more, trivia_ws|now apply tok_more].
  Qed.
  Lemma ps_label s : plain_name s -> PS (SLabel s).
  Proof.
    intros H. destruct (name_rep s H) as (cn & Rn & Hn & E). assert (R : rep [(Some UColonColon, [58; 58]%Z)] 58 unjoined [58; 58]%Z) by (apply mark_rep; unfold marks; member).
    exists ([(Some UColonColon, [58; 58]%Z)] ++ [(Some UIdentifier, s)] ++ [(Some UColonColon, [58; 58]%Z)]), 58%Z, UColonColon. split; [|split; [do 2 eexists; reflexivity|split; [reflexivity|]]].
    - eapply rep_text; [eapply rep_app; [exact R|eapply rep_app; [exact Rn|eapply rep_stop; [exact R|intros x ->; chars]|chars]|now apply start_unjoined]|reflexivity].
    - intros k w Hw _ _ _. rewrite <- E at 2. group ([(Some UColonColon, [58; 58]%Z)] ++ [(Some UIdentifier, s)] ++ ((Some UColonColon, [58; 58]%Z) :: w)). eapply TLabel; [apply tok_one|apply tok_one|now apply tok_more].
  Qed.

  (** ** All together *)
  Scheme fit_min := Minimality for fit Sort Prop
    with fits_min := Minimality for fits Sort Prop
    with fit_fields_min := Minimality for fit_fields Sort Prop
    with fit_stmt_min := Minimality for fit_stmt Sort Prop
    with fit_elseifs_min := Minimality for fit_elseifs Sort Prop
    with fit_block_min := Minimality for fit_block Sort Prop.
  Lemma block_printed i b : fit_block parse show i b -> PB i b.
  Proof.
    apply (fit_block_min F parse show PE PEs PFs PS PAlt PB); intros.
    - now apply pe_name.
    - now apply pe_number.
    - now apply pe_string.
    - apply pe_bool.
    - apply pe_nil.
    - eapply pe_member; eassumption.
    - eapply pe_call; eassumption.
    - now apply pe_table.
    - now apply pe_function.
    - eapply pe_unary; eassumption.
    - eapply pe_binary; eassumption.
    - intros v r; discriminate.
    - eapply pes_cons; eassumption.
    - now left.
    - eapply pfs_list; eassumption.
    - eapply pfs_named; eassumption.
    - now apply ps_local.
    - now apply ps_assign.
    - eapply ps_expr; eassumption.
    - now apply ps_return.
    - eapply ps_if; eassumption.
    - eapply ps_if_else; eassumption.
    - eapply ps_while; eassumption.
    - eapply ps_numeric; [eassumption|eassumption|eassumption|discriminate|assumption].
    - eapply ps_numeric; [eassumption|eassumption|eassumption| |assumption]. intros v [= <-]. do 2 eexists. eassumption.
    - now apply ps_generic.
    - eapply ps_repeat; eassumption.
    - now apply ps_declaration.
    - apply ps_break.
    - now apply ps_do.
    - now apply ps_goto.
    - now apply ps_label.
    - apply palt_nil.
    - eapply palt_cons; eassumption.
    - apply pb_nil.
    - now apply pb_cons.
  Qed.
  Lemma program_printed b : fit_block parse show false b ->
    exists cs ps, encode cs = print_root show b /\ Forall is_scalar cs /\ mild cs /\ cut lua_piece cs ps /\ is_block parse UEof ps b.
  Proof.
    intros H. destruct (block_printed false b H) as (e & R & _ & _ & X). specialize (X UEof ltac:(unfold closer; member)). unfold print_root. destruct R as [[-> ->]|(c & E & (Sc & Md) & _ & C)].
    - exists [], []. split; [reflexivity|]. split; [constructor|]. split; [intros [|? ?]; discriminate|]. split; [constructor|exact X].
    - exists (text_of_pieces e), e. split; [exact E|]. split; [exact Sc|]. split; [exact Md|]. split; [|exact X]. specialize (C [] [] ltac:(discriminate) (CutEnd _)). rewrite !app_nil_r in C. exact C.
  Qed.
End Print.
