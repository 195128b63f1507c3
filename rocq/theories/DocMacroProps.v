(** Theorems about [doc!] and the derive macros. *)
From Verif Require Import Base Utf8 PrettyModel VfsModel VfsProofs MacroModel DocMacroModel.

(** ** What a use of [doc!] says *)
Definition comma := TPunct 44%Z.

Section Written.
  Variable (E : Type) (rust : list tt -> option (E * list tt)) (doc_of : E -> doc) (docs_of : E -> list doc).

  Definition words : list (str * doc) := [(lit "nil", Nil); (lit "line", Line); (lit "soft_line", SoftLine); (lit "soft_line_space", SoftLineSpace); (lit "hard_line", HardLine)].
  Definition names : list str := map fst words ++ [lit "indent"; lit "group"; lit "join"].

  (** Tokens that are none of the forms of [doc!] at their start, and that Rust reads as [e] in front of a comma or the end. *)
  Definition expression (ts : list tt) (e : E) : Prop :=
    (forall r, r = [] \/ (exists r', r = comma :: r') -> rust (ts ++ r) = Some (e, r)) /\
    match ts with
    | TIdent s :: _ => ~ In s names
    | TLit (LStr _) :: _ | TGroup DBracket _ :: _ | [] => False
    | _ => True
    end.
  Definition items_expression (ts : list tt) (e : E) : Prop := forall r', rust (ts ++ comma :: r') = Some (e, comma :: r').

  (** One document; the documents with commas between them (one comma may follow the last); and the inside of parentheses, where
      several documents are a concatenation. *)
  Inductive written : list tt -> doc -> Prop :=
  | WWord s d : In (s, d) words -> written [TIdent s] d
  | WText s : written [TLit (LStr s)] (Text s)
  | WIndent ts d : inside ts d -> written [TIdent (lit "indent"); TGroup DParen ts] (Indent d)
  | WGroup ts d : inside ts d -> written [TIdent (lit "group"); TGroup DParen ts] (Group d)
  | WJoin es e ts d : items_expression es e -> inside ts d -> written [TIdent (lit "join"); TGroup DParen (es ++ comma :: ts)] (join (docs_of e) d)
  | WEmpty : written [TGroup DBracket []] (Concat [])
  | WList ts ds : listed ts ds -> written [TGroup DBracket ts] (Concat ds)
  | WExpr ts e : expression ts e -> written ts (doc_of e)
  with listed : list tt -> list doc -> Prop :=
  | LOne ts d : written ts d -> listed ts [d]
  | LEnd ts d : written ts d -> listed (ts ++ [comma]) [d]
  | LMore ts d r ds : written ts d -> listed r ds -> listed (ts ++ comma :: r) (d :: ds)
  with inside : list tt -> doc -> Prop :=
  | IOne ts d : written ts d -> inside ts d
  | IMany ts ds : listed ts ds -> inside ts (Concat ds).

  Scheme written_ind2 := Minimality for written Sort Prop
  with listed_ind2 := Minimality for listed Sort Prop
  with inside_ind2 := Minimality for inside Sort Prop.
  Combined Scheme doc_written_mutual from written_ind2, listed_ind2, inside_ind2.
End Written.

(** ** Documents that lay out alike, wherever they are *)
Definition alike (a b : doc) : Prop := forall cfg,
  (forall broken p, render cfg a broken p = render cfg b broken p) /\ (forall w, check_width cfg a w = check_width cfg b w).

Definition render_all cfg (broken : bool) := fix go (ds : list doc) (p : printer) : printer := match ds with [] => p | d :: r => go r (render cfg d broken p) end.
Definition width_all cfg := fix go (ds : list doc) (width : nat) : bool * nat :=
  match ds with [] => (false, width) | d :: r => let '(b, w) := check_width cfg d width in if b then (true, w) else go r w end.
Lemma render_concat cfg ds b p : render cfg (Concat ds) b p = render_all cfg b ds p. Proof. reflexivity. Qed.
Lemma width_concat cfg ds w : check_width cfg (Concat ds) w = if max_width cfg <? w then (true, w) else width_all cfg ds w. Proof. reflexivity. Qed.
Lemma width_over cfg d w : max_width cfg < w -> check_width cfg d w = (true, w).
Proof. intros H. apply Nat.ltb_lt in H. destruct d; cbn [check_width]; now rewrite H. Qed.

Lemma alike_refl d : alike d d. Proof. now split. Qed.
Lemma alike_trans a b c : alike a b -> alike b c -> alike a c.
Proof. intros H G cfg. destruct (H cfg) as [H1 H2], (G cfg) as [G1 G2]. split; intros; [now rewrite H1 | now rewrite H2]. Qed.
Lemma alike_print a b cfg : alike a b -> print cfg a = print cfg b.
Proof. intros H. unfold print. now rewrite (proj1 (H cfg)). Qed.
Lemma alike_group a b : alike a b -> alike (Group a) (Group b).
Proof. intros H cfg. destruct (H cfg) as [R W]. split; intros; cbn [render check_width]; [unfold will_break; now rewrite W, R | now rewrite W]. Qed.
Lemma alike_indent a b : alike a b -> alike (Indent a) (Indent b).
Proof. intros H cfg. destruct (H cfg) as [R W]. split; intros; cbn [render check_width]; [now rewrite R | now rewrite W]. Qed.
Lemma alike_concat l m : Forall2 alike l m -> alike (Concat l) (Concat m).
Proof.
  intros F cfg. split; [intros b p; rewrite !render_concat | intros w; rewrite !width_concat; destruct (max_width cfg <? w); [reflexivity|]].
  - revert p. induction F as [| x y l m H _ IH]; intros p; [reflexivity|]. cbn [render_all]. rewrite (proj1 (H cfg)). apply IH.
  - revert w. induction F as [| x y l m H _ IH]; intros w; [reflexivity|]. cbn [width_all]. rewrite (proj2 (H cfg)). destruct (check_width cfg y w) as [b v]. now destruct b.
Qed.
Lemma alike_nested ds : alike (Concat [Concat ds]) (Concat ds).
Proof.
  intros cfg. split; [reflexivity|]. intros w. rewrite !width_concat. destruct (max_width cfg <? w) eqn:Ew; [reflexivity|]. cbn [width_all]. rewrite width_concat, Ew. destruct (width_all cfg ds w) as [b v]. now destruct b.
Qed.
Lemma alike_single d : alike (Concat [d]) d.
Proof.
  intros cfg. split; [reflexivity|]. intros w. rewrite width_concat. destruct (max_width cfg <? w) eqn:Ew; [apply Nat.ltb_lt in Ew; now rewrite width_over|]. cbn [width_all]. destruct (check_width cfg d w) as [b v]. now destruct b.
Qed.
Lemma alike_join l a b : alike a b -> alike (join l a) (join l b).
Proof.
  intros H. unfold join. apply alike_concat. generalize 0 as i. induction l as [| d l IH]; intros i; [constructor|]. cbn [join_from]. apply Forall2_app; [|constructor; [apply alike_refl | apply IH]]. destruct (0 <? i); [|constructor]. constructor; [assumption | constructor].
Qed.

Section Expand.
  Variable (E : Type) (rust : list tt -> option (E * list tt)) (doc_of : E -> doc) (docs_of : E -> list doc).
  Notation val := (doc_value E doc_of docs_of).
  Notation single := (doc_single E rust).

  Definition stops (r : list tt) : Prop := r = [] \/ exists r', r = comma :: r'.
  Definition P (ts : list tt) (d : doc) := ts <> [] /\ exists n, forall fuel r, n <= fuel -> stops r -> exists x, single fuel (ts ++ r) = Some (x, r) /\ alike (val x) d.
  (** After a first item the list is at a comma or at its end. *)
  Definition Q (ts : list tt) (ds : list doc) := ts <> [] /\ exists n, forall fuel f, n <= fuel -> n <= f ->
    exists x xs c, single fuel ts = Some (x, c) /\ stops c /\ doc_items E (single fuel) f c = Some (xs, []) /\ Forall2 alike (map val (x :: xs)) ds /\ (c = [] -> xs = []).
  Definition I (ts : list tt) (d : doc) := ts <> [] /\ exists n, forall fuel f, n <= fuel -> n <= f ->
    exists x, whole (doc_parse E (single fuel) f ts) = Some x /\ alike (val x) d.

  Lemma stops_nil : stops []. Proof. now left. Qed.
  Lemma stops_comma r : stops (comma :: r). Proof. right. now exists r. Qed.

  Lemma expand : (forall ts d, written E rust doc_of docs_of ts d -> P ts d) /\ (forall ts ds, listed E rust doc_of docs_of ts ds -> Q ts ds) /\ (forall ts d, inside E rust doc_of docs_of ts d -> I ts d).
  Proof.
    apply (doc_written_mutual E rust doc_of docs_of P Q I).
    - intros s d H. split; [discriminate|]. exists 1. intros [| f] r L _; [lia|]. cbn [app doc_single]. cbn [words In] in H.
      repeat destruct H as [H | H]; try contradiction; injection H as <- <-; eexists; (split; [reflexivity | apply alike_refl]).
    - intros s. split; [discriminate|]. exists 1. intros [| f] r L _; [lia|]. eexists. split; [reflexivity | apply alike_refl].
    - intros ts d _ (N & n & H). split; [discriminate|]. exists (S n). intros [| f] r L _; [lia|]. destruct (H f f) as (x & A & B); [lia | lia|]. cbn [app doc_single]. change (str_eqb (lit "indent") _) with false at 1 2 3 4 5. change (str_eqb (lit "indent") (lit "indent")) with true. cbn iota beta. rewrite A. eexists. split; [reflexivity|]. cbn [doc_value]. now apply alike_indent.
    - intros ts d _ (N & n & H). split; [discriminate|]. exists (S n). intros [| f] r L _; [lia|]. destruct (H f f) as (x & A & B); [lia | lia|]. eexists. split; [cbn [app doc_single]; unfold str_eqb at 1 2 3 4 5 6 7; cbn; rewrite A; reflexivity|]. cbn [doc_value]. now apply alike_group.
    - intros es e ts d He _ (N & n & H). split; [discriminate|]. exists (S n). intros [| f] r L _; [lia|]. destruct (H f f) as (x & A & B); [lia | lia|]. eexists. split; [cbn [app doc_single]; unfold str_eqb at 1 2 3 4 5 6 7 8; cbn; rewrite He; cbn; rewrite A; reflexivity|]. cbn [doc_value]. now apply alike_join.
    - split; [discriminate|]. exists 2. intros [| [| f]] r L _; try lia. eexists. split; [reflexivity | apply alike_refl].
    - intros ts ds _ (N & n & H). split; [discriminate|]. exists (S (S (S n))). intros [| f] r L _; [lia|]. destruct (H f f) as (x & xs & c & A & Sc & B & C & D); [lia | lia|]. cbn [app doc_single].
      assert (Eb : forall g, 2 <= g -> exists l, doc_bracket E (doc_parse E (single f) f) g ts = Some l /\ alike (Concat (map val l)) (Concat ds)).
      { intros [| [| g]] Lg; try lia. cbn [doc_bracket]. destruct ts as [| t ts]; [congruence|]. unfold doc_parse. rewrite A. destruct Sc as [-> | (c' & ->)].
        - cbn [eat_comma comma]. eexists. split; [reflexivity|]. rewrite (D eq_refl) in C. cbn [map]. now apply alike_concat.
        - cbn [eat_comma comma]. change (TPunct 44%Z) with comma. rewrite B. cbn [eat_comma]. eexists. split; [reflexivity|]. cbn [map doc_value]. eapply alike_trans; [apply alike_nested | now apply alike_concat]. }
      destruct (Eb f ltac:(lia)) as (l & -> & B'). eexists. split; [reflexivity|]. exact B'.
    - intros ts e [R W]. split; [now destruct ts|]. exists 1. intros [| f] r L Sr; [lia|]. exists (DExpr e). split; [|apply alike_refl]. specialize (R r Sr). assert (X : as_expr E rust (ts ++ r) = Some (DExpr e, r)) by (unfold as_expr; now rewrite R).
      destruct ts as [| t ts]; [contradiction|]. cbn [app] in *. cbn [doc_single]. destruct t as [s | [s | b | s | s] | c | [] ts']; try contradiction; try exact X.
      cbn [names words map fst app In] in W. assert (K : forall w, s <> w -> str_eqb s w = false) by (intros w Hw; destruct (str_eqb s w) eqn:Q0; [apply str_eqb_spec in Q0; contradiction | reflexivity]).
      rewrite !K by (intros ->; apply W; tauto). exact X.
    - intros ts d W (N & n & H). split; [assumption|]. exists (S n). intros fuel f L1 L2. destruct (H fuel [] ltac:(lia) stops_nil) as (x & A & B). rewrite app_nil_r in A. exists x, [], []. split; [assumption|]. split; [apply stops_nil|]. split; [destruct f; [lia | reflexivity]|]. split; [|reflexivity]. constructor; [assumption | constructor].
    - intros ts d W (N & n & H). split; [destruct ts; discriminate|]. exists (S n). intros fuel f L1 L2. destruct (H fuel [comma] ltac:(lia) (stops_comma [])) as (x & A & B). exists x, [], [comma]. split; [assumption|]. split; [apply stops_comma|]. split; [destruct f; [lia | reflexivity]|]. split; [|reflexivity]. constructor; [assumption | constructor].
    - intros ts d r ds W (N & n & H) _ (Nr & m & G). split; [destruct ts; discriminate|]. exists (S (n + m)). intros fuel [| f] L1 L2; [lia|]. destruct (H fuel (comma :: r) ltac:(lia) (stops_comma r)) as (x & A & B). destruct (G fuel f ltac:(lia) ltac:(lia)) as (y & ys & c & A' & Sc & B' & C' & _).
      exists x, (y :: ys), (comma :: r). split; [assumption|]. split; [apply stops_comma|]. split; [|split; [cbn [map]; constructor; assumption | discriminate]]. cbn [doc_items eat_comma comma]. destruct r as [| t r]; [congruence|]. now rewrite A', B'.
    - intros ts d W (N & n & H). split; [assumption|]. exists n. intros fuel f L1 L2. destruct (H fuel [] L1 stops_nil) as (x & A & B). rewrite app_nil_r in A. exists x. split; [|assumption]. unfold doc_parse. now rewrite A.
    - intros ts ds W (N & n & H). split; [assumption|]. exists n. intros fuel f L1 L2. destruct (H fuel f L1 L2) as (x & xs & c & A & Sc & B & C & D). unfold doc_parse. rewrite A. destruct Sc as [-> | (c' & ->)].
      + cbn [eat_comma whole]. exists x. split; [reflexivity|]. rewrite (D eq_refl) in C. cbn [map] in C. inversion C as [| ? ? ? ? C1 C2]; subst. inversion C2; subst. eapply alike_trans; [exact C1|]. intros cfg. destruct (alike_single y cfg) as [R1 R2]. now split.
      + cbn [eat_comma comma]. change (TPunct 44%Z) with comma. rewrite B. cbn [whole]. eexists. split; [reflexivity|]. cbn [doc_value]. now apply alike_concat.
  Qed.
End Expand.

(** ** [doc!] builds a document that prints as the one written *)
Theorem doc_macro_prints_partial : forall E rust doc_of docs_of ts d, inside E rust doc_of docs_of ts d ->
  exists n, forall fuel, n <= fuel -> exists d', doc_macro E rust doc_of docs_of fuel ts = Some d' /\ forall cfg, print cfg d' = print cfg d.
Proof.
  intros E rust doc_of docs_of ts d W. destruct (proj2 (proj2 (expand E rust doc_of docs_of)) ts d W) as (_ & n & H). exists n. intros fuel L. destruct (H fuel fuel L L) as (x & A & B). unfold doc_macro. rewrite A. eexists. split; [reflexivity|]. intros cfg. now apply alike_print.
Qed.
Print Assumptions doc_macro_prints_partial.

(** Expressions that are single identifiers; their documents are their names, their items the characters. *)
Definition idents (ts : list tt) : option (str * list tt) := match ts with TIdent s :: r => Some (s, r) | _ => None end.
Definition chars_of (s : str) : list doc := map (fun c => Text [c]) s.
(** doc!(group(["(", indent([soft_line, join(ab, [",", soft_line_space])]), x, ")"])) *)
Definition sample_doc : list tt :=
  [TIdent (lit "group"); TGroup DParen [TGroup DBracket
    [TLit (LStr (lit "(")); comma;
     TIdent (lit "indent"); TGroup DParen [TGroup DBracket [TIdent (lit "soft_line"); comma;
        TIdent (lit "join"); TGroup DParen ([TIdent (lit "ab")] ++ comma :: [TGroup DBracket [TLit (LStr (lit ",")); comma; TIdent (lit "soft_line_space")]])]]; comma;
     TIdent (lit "x"); comma; TLit (LStr (lit ")"))]]].
Definition sample_written_doc : doc :=
  Group (Concat [Text (lit "("); Indent (Concat [SoftLine; join [Text (lit "a"); Text (lit "b")] (Concat [Text (lit ","); SoftLineSpace])]); Text (lit "x"); Text (lit ")")]).
Example doc_macro_case : inside str idents Text chars_of sample_doc sample_written_doc /\
  exists d, doc_macro str idents Text chars_of 9 sample_doc = Some d /\ print default_config d = lit "(a, bx)" ++ [10%Z].
Proof.
  split; [|eexists; split; [vm_compute; reflexivity | vm_compute; reflexivity]]. apply IOne, WGroup, IOne, WList.
  apply (LMore _ _ _ _ [TLit (LStr (lit "("))]); [apply WText|]. match goal with |- listed _ _ _ _ (?a :: ?b :: _) _ => apply (LMore _ _ _ _ [a; b]) end.
  - apply WIndent, IOne, WList. apply (LMore _ _ _ _ [TIdent (lit "soft_line")]); [apply WWord; cbn; tauto|]. apply LOne. change [Text (lit "a"); Text (lit "b")] with (chars_of (lit "ab")). apply WJoin; [intros r; reflexivity|]. apply IOne, WList.
    apply (LMore _ _ _ _ [TLit (LStr (lit ","))]); [apply WText|]. apply LOne, WWord. cbn. tauto.
  - apply (LMore _ _ _ _ [TIdent (lit "x")]); [|apply LOne, WText]. apply (WExpr str idents Text chars_of [TIdent (lit "x")] (lit "x")). split; [reflexivity|]. cbn. intuition discriminate.
Qed.

(** The document is not the one written: brackets with a comma inside are a concatenation in a concatenation. *)
Theorem doc_macro_structure_refuted : exists ts d d', inside str idents Text chars_of ts d /\ doc_macro str idents Text chars_of 9 ts = Some d' /\ d' <> d.
Proof.
  exists [TGroup DBracket [TIdent (lit "nil"); comma; TIdent (lit "line")]], (Concat [Nil; Line]), (Concat [Concat [Nil; Line]]). split; [|split; [vm_compute; reflexivity | discriminate]].
  apply IOne, WList. apply (LMore _ _ _ _ [TIdent (lit "nil")]); [apply WWord; cbn; tauto|]. apply LOne, WWord. cbn. tauto.
Qed.
Print Assumptions doc_macro_structure_refuted.

(** Between brackets commas can be missing. *)
Theorem doc_macro_commas_refuted : exists ts d, doc_macro str (fun _ => None) Text chars_of 9 ts = Some d /\ forall d', ~ inside str (fun _ => None) Text chars_of ts d'.
Proof.
  set (l := [TLit (LStr (lit "a")); TLit (LStr (lit "b"))]). exists [TGroup DBracket l], (Concat [Text (lit "a"); Text (lit "b")]). split; [vm_compute; reflexivity|].
  assert (Nr : forall ts e, ~ expression str (fun _ => None) ts e) by (intros ts e [H _]; specialize (H [] (or_introl eq_refl)); discriminate).
  assert (Nw : forall d, ~ written str (fun _ => None) Text chars_of l d) by (intros d W; inversion W; subst; now apply Nr in H).
  assert (Nc : forall a b, l <> a ++ comma :: b) by (unfold l; intros [| x [| y [| z a]]] b H; discriminate).
  assert (Nl : forall ds, ~ listed str (fun _ => None) Text chars_of l ds) by (intros ds L; inversion L; subst; [now apply Nw in H | now apply (Nc ts []) | now apply (Nc ts r)]).
  assert (Ng : forall d, ~ written str (fun _ => None) Text chars_of [TGroup DBracket l] d) by (intros d W; inversion W; subst; [now apply Nl in H0 | now apply Nr in H]).
  intros d I. inversion I; subst; [now apply Ng in H|]. inversion H; subst; [now apply Ng in H0 | |]; (destruct ts as [| x [| y ts]]; discriminate).
Qed.
Print Assumptions doc_macro_commas_refuted.

(** ** derive(FormatRule): the priority *)
(** What is written in an attribute: names without value, and priorities. *)
Inductive entry := EFlag (s : str) | EPriority (digits : str).
Definition entry_tokens (e : entry) : list tt := match e with EFlag s => [TIdent s] | EPriority n => [TIdent (lit "priority"); TPunct 61%Z; TLit (LInt n)] end.
Fixpoint entries_tokens (es : list entry) : list tt :=
  match es with [] => [] | [e] => entry_tokens e | e :: r => entry_tokens e ++ comma :: entries_tokens r end.
Definition number_of (s : str) : nat := fold_left (fun n c => n * 10 + Z.to_nat (c - 48)) s 0.
Definition entry_ok (e : entry) : Prop :=
  match e with EFlag s => s <> lit "priority" | EPriority s => s <> [] /\ Forall (fun c => (48 <= c <= 57)%Z) s /\ number_of s < 256 end.
(** The last one counts; 0 without any. *)
Definition last_priority (es : list entry) : nat := fold_left (fun n e => match e with EPriority s => number_of s | EFlag _ => n end) es 0.

Lemma decimal_number s : forall n, Forall (fun c => (48 <= c <= 57)%Z) s -> decimal n s = Some (fold_left (fun n c => n * 10 + Z.to_nat (c - 48)) s n).
Proof.
  induction s as [| c s IH]; intros n F; [reflexivity|]. inversion F; subst. cbn [decimal fold_left]. destruct (Z.leb_spec 48 c); [|lia]. destruct (Z.leb_spec c 57); [|lia]. cbn [andb]. now apply IH.
Qed.
Lemma entry_step e a r : entry_ok e -> exists name rest, entry_tokens e ++ r = TIdent name :: rest /\
  priority_closure name a rest = Some (match e with EPriority s => number_of s | EFlag _ => a end, r).
Proof.
  destruct e as [s | s]; cbn [entry_ok entry_tokens app].
  - intros N. exists s, r. split; [reflexivity|]. unfold priority_closure. destruct (str_eqb s (lit "priority")) eqn:Q0; [apply str_eqb_spec in Q0; contradiction | reflexivity].
  - intros (N & D & L). eexists _, _. split; [reflexivity|]. unfold priority_closure. change (str_eqb (lit "priority") (lit "priority")) with true. cbn iota. unfold parse_u8. rewrite decimal_number by assumption. destruct s; [congruence|]. fold (number_of (z :: s)). destruct (Nat.ltb_spec (number_of (z :: s)) 256); [reflexivity | lia].
Qed.
Lemma entries_nonempty e es : exists t r, entries_tokens (e :: es) = t :: r.
Proof. destruct e, es; eexists _, _; reflexivity. Qed.
Lemma entries_meta es : Forall entry_ok es -> forall fuel a, length es < fuel -> nested_meta priority_closure fuel a (entries_tokens es) = fold_left (fun n e => match e with EPriority s => number_of s | EFlag _ => n end) es a.
Proof.
  induction 1 as [| e es O F IH]; intros [| fuel] a L; cbn [length] in L; try lia; [reflexivity|]. cbn [fold_left]. destruct es as [| e2 es].
  - cbn [entries_tokens fold_left]. destruct (entry_step e a [] O) as (name & rest & E1 & E2). rewrite app_nil_r in E1. cbn [nested_meta]. rewrite E1, E2. reflexivity.
  - change (entries_tokens (e :: e2 :: es)) with (entry_tokens e ++ comma :: entries_tokens (e2 :: es)). destruct (entry_step e a (comma :: entries_tokens (e2 :: es)) O) as (name & rest & E1 & E2). cbn [nested_meta]. rewrite E1, E2. cbn [eat_comma comma].
    destruct (entries_nonempty e2 es) as (t & r & Et). rewrite Et. rewrite <- Et. apply IH. cbn [length] in *. lia.
Qed.
Lemma entries_length es : length es <= length (entries_tokens es).
Proof. induction es as [| e es IH]; [cbn; lia|]. destruct es as [| e2 es]; [destruct e; cbn; lia|]. change (entries_tokens (e :: e2 :: es)) with (entry_tokens e ++ comma :: entries_tokens (e2 :: es)). rewrite app_length. cbn [length] in *. destruct e; cbn [entry_tokens length]; lia. Qed.

(** [attributes] are those of the type, of whatever name; in those named [oak] the last priority counts. *)
Theorem rule_priority_partial : forall attributes : list (str * list entry), Forall (fun x => fst x = lit "oak" -> Forall entry_ok (snd x)) attributes ->
  rule_priority (map (fun x => (fst x, entries_tokens (snd x))) attributes) = last_priority (flat_map snd (filter (fun x => str_eqb (fst x) (lit "oak")) attributes)).
Proof.
  unfold rule_priority, attrs, last_priority. intros l. generalize 0 as a. induction l as [| [name es] l IH]; intros a F; [reflexivity|]. inversion F as [| ? ? F1 F2]; subst. cbn [map fold_left fst snd filter] in *. destruct (str_eqb name (lit "oak")) eqn:Q0.
  - apply str_eqb_spec in Q0. specialize (F1 Q0). rewrite entries_meta; [|assumption | pose proof (entries_length es); lia]. cbn [flat_map snd]. rewrite fold_left_app. now apply IH.
  - now apply IH.
Qed.
Print Assumptions rule_priority_partial.

Example rule_priority_case : rule_priority [(lit "oak", entries_tokens [EFlag (lit "flag"); EPriority (lit "7"); EPriority (lit "42")]); (lit "doc", [])] = 42.
Proof. reflexivity. Qed.

(** A value for another name in front, or a number that does not fit, and the priority is 0 without a message. *)
Theorem rule_priority_refuted :
  rule_priority [(lit "oak", [TIdent (lit "name"); TPunct 61%Z; TLit (LStr (lit "x")); comma; TIdent (lit "priority"); TPunct 61%Z; TLit (LInt (lit "5"))])] = 0 /\
  rule_priority [(lit "oak", entries_tokens [EPriority (lit "256")])] = 0.
Proof. split; reflexivity. Qed.
Print Assumptions rule_priority_refuted.

(** ** derive(AsDocument) *)
(** A document given in the attribute is the document, and one field is the document of that field. *)
Theorem derived_document_partial : forall E rust doc_of docs_of,
  (forall ts d fields, inside E rust doc_of docs_of ts d -> exists n, forall fuel, n <= fuel -> forall cfg,
     print cfg (derived E rust doc_of docs_of fuel [(lit "oak", TIdent (lit "doc") :: TPunct 61%Z :: ts)] fields) = print cfg d) /\
  (forall fuel f, derived E rust doc_of docs_of fuel [] [f] = f).
Proof.
  intros E rust doc_of docs_of. split; [|reflexivity]. intros ts d fields W. destruct (proj2 (proj2 (expand E rust doc_of docs_of)) ts d W) as (_ & n & H). exists n. intros fuel L cfg. destruct (H fuel fuel L L) as (x & A & B).
  unfold derived, custom_doc, attrs. cbn [fold_left fst snd]. change (str_eqb (lit "oak") (lit "oak")) with true. cbn iota. cbn [length nested_meta]. unfold doc_closure at 1. change (str_eqb (lit "doc") (lit "doc")) with true. cbn iota.
  destruct (doc_parse E (doc_single E rust fuel) fuel ts) as [[y r]|]; [|discriminate]. destruct r; [|discriminate]. injection A as ->. cbn [eat_comma]. now apply alike_print.
Qed.
Print Assumptions derived_document_partial.

Example derived_document_case : derived str idents Text chars_of 9 [(lit "oak", [TIdent (lit "doc"); TPunct 61%Z; TLit (LStr (lit "x")); comma; TIdent (lit "hard_line")])] [Text (lit "y"); Text (lit "z")] = Concat [Text (lit "x"); HardLine].
Proof. reflexivity. Qed.

(** Two fields and no attribute: nothing is printed.  An attribute that does not parse is ignored. *)
Theorem derived_document_refuted :
  (forall cfg fuel, print cfg (derived str idents Text chars_of fuel [] [Text (lit "a"); Text (lit "b")]) = []) /\
  (forall fuel, derived str idents Text chars_of fuel [(lit "oak", [TIdent (lit "doc"); TPunct 61%Z; TIdent (lit "group")])] [Text (lit "a")] = Text (lit "a")).
Proof.
  split; [intros cfg fuel; unfold derived; cbn [custom_doc attrs fold_left]; unfold print, finalize; cbn; destruct (trim_trailing_whitespace cfg); cbn; now rewrite andb_false_r|]. intros [| fuel]; reflexivity.
Qed.
Print Assumptions derived_document_refuted.

(** Lists and options: everything in a list is printed, in order. *)
Theorem vec_document_prints : forall cfg l b p, render cfg (vec_document l) b p = fold_left (fun p d => render cfg d b p) l p.
Proof. intros cfg l b. unfold vec_document. induction l as [| d l IH]; intros p; [reflexivity|]. exact (IH (render cfg d b p)). Qed.
Print Assumptions vec_document_prints.
Example vec_document_case : print default_config (vec_document [option_document (Some (Text (lit "a"))); option_document None; Text (lit "b")]) = lit "ab" ++ [10%Z].
Proof. reflexivity. Qed.
