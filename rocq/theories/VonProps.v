(** Theorems about the VON lexer, parser, builder and printer. *)
From Verif Require Import Base Utf8 Utf8Facts LexModel LexSpec TreeModel TreeSpec ParserModel JsonLangSpec LangModel LangSpec LangLexProofs VonModel VonSpec.
From Verif Require VonLexProofs VonProofs VonGrammarProofs VonBuildProofs.
From Verif Require Import VonTextProofs.

(** ** Tokens *)
Theorem von_tokens_exact cs : Forall is_scalar cs ->
  exists ps, cut von_piece cs ps /\ von_lex (encode cs) = Some (spans 0 ps) /\ forall ps', cut von_piece cs ps' -> ps' = ps.
Proof.
  intros Sc. destruct (VonLexProofs.von_lex_cut cs Sc) as (ps & C & E). exists ps. split; [exact C|]. split; [exact E|]. intros ps' C'. symmetry. exact (cut_unique von_piece cs ps VonLexProofs.von_pieces_unique C ps' C').
Qed.
Print Assumptions von_tokens_exact.

Definition kinds_of (t : str) : option (list nat) := option_map (map tk_kind) (von_lex t).
(** [raw] opens a string only before a quote, three quotes take single ones in, and a fraction stays apart from a
    following name *)
Example von_tokens_run :
  kinds_of (lit "raw'\' raw") = Some [NString; NWhitespace; NIdentifier] /\
  kinds_of (lit """""""a""b""""""") = Some [NString] /\
  kinds_of (lit "-1_0.5e+3,1.x") = Some [NNumber; NComma; NNumber; NError; NIdentifier] /\
  kinds_of (lit "a='it\'s' # 'x") = Some [NIdentifier; NEq; NString; NWhitespace; NComment].
Proof. vm_compute. repeat split. Qed.

(** ** Trees *)
(** Every text has a tree.  Its leaves are tokens of the text one after the other, but the blanks and comments at the
    beginning are not among them, and what comes after them is counted from zero. *)
Theorem von_tree_leaves cs ps : Forall is_scalar cs -> (Z.of_nat (length (encode cs)) < 2 ^ 32)%Z -> cut von_piece cs ps ->
  exists root errs w used rest, von_parse (encode cs) = Some (root, errs) /\ ps = w ++ used ++ rest /\ Forall trivia w /\ settled (used ++ rest) /\
    TreeSpec.leaves root 0 = map (fun t => (tk_kind t, tk_start t, tk_end t)) (spans 0 used) /\ width root = len used.
Proof.
  intros Sc L C. destruct (cut_some cs ps C) as (N & _ & _). destruct (split_trivia ps N) as (w & qs & Eps & Fw & Sq). destruct (parse_view cs ps w qs Sc L C Eps Fw Sq) as (root & errs & E & (ts & used & rest & -> & Eq & Cv) & _).
  rewrite Eps, Eq in N. apply Forall_app in N. destruct N as [_ N]. apply Forall_app in N. destruct (covers_spans ts used Cv (proj1 N)) as [W Lv]. exists (gnode NRoot ts), errs, w, used, rest. rewrite <- Eq.
  split; [assumption|]. split; [assumption|]. split; [assumption|]. split; [assumption|]. split; [exact (eq_trans (leaves_lay _ _ ts 0) (Lv 0)) | exact W].
Qed.
Print Assumptions von_tree_leaves.

Example von_tree_run : exists root, von_parse (lit " a={b=[1]} ?") = Some (root, []) /\ width root = 10 /\
  TreeSpec.leaves root 0 = [(NIdentifier, 0, 1); (NEq, 1, 2); (NLeftBrace, 2, 3); (NIdentifier, 3, 4); (NEq, 4, 5); (NLeftBracket, 5, 6); (NNumber, 6, 7); (NRightBracket, 7, 8); (NRightBrace, 8, 9); (NWhitespace, 9, 10)].
Proof. eexists. split; [vm_compute; reflexivity|]. split; vm_compute; reflexivity. Qed.

(** The tree should have the whole text: a blank before the text moves everything, one after a value and something more
    ends the tree. *)
Theorem von_tree_whole_refuted : exists t u root root', von_parse t = Some (root, []) /\ width root < length t /\ von_parse u = Some (root', []) /\ width root' < length u /\
  ~ (exists c, hd_error u = Some c /\ blank c).
Proof.
  exists (lit " true"), (lit "{} {}"). do 2 eexists. split; [vm_compute; reflexivity|]. split; [vm_compute; lia|]. split; [vm_compute; reflexivity|]. split; [vm_compute; lia|]. intros (c & E & [-> | ->]); discriminate.
Qed.
Print Assumptions von_tree_whole_refuted.

(** ** Reading *)
(** A text that is a document is read as what the document means, with no diagnostics. *)
Theorem von_document_read_partial {F} (parse : str -> option F) cs ps e r t v :
  Forall is_scalar cs -> (Z.of_nat (length (encode cs)) < 2 ^ 32)%Z -> cut von_piece cs ps -> ps = e ++ r -> settled r -> document parse 0 e r t v ->
  von_build parse (encode cs) = Some (Some v, []).
Proof. exact (built_document F parse cs ps e r t v). Qed.
Print Assumptions von_document_read_partial.

(** What comes with no diagnostics is a document, after blanks and before what is left over. *)
Theorem von_document_exact {F} (parse : str -> option F) cs ps :
  Forall is_scalar cs -> (Z.of_nat (length (encode cs)) < 2 ^ 32)%Z -> cut von_piece cs ps ->
  Forall (fun p => fst p = Some NNumber -> exists x, parse (encode (without_underscores (snd p))) = Some x) ps ->
  forall t, von_parse (encode cs) = Some (gnode NRoot [t], []) <->
  exists w e r, ps = w ++ e ++ r /\ Forall trivia w /\ settled (e ++ r) /\ settled r /\ forall o, exists v, document parse o e r t v.
Proof.
  intros Sc L C Pn t. destruct (cut_some cs ps C) as (N & _ & _). split.
  - intros H. destruct (split_trivia ps N) as (w & qs & Eps & Fw & Sq). rewrite Eps in Pn. apply Forall_app in Pn. destruct (document_read F parse cs ps w qs Sc L C Eps Fw Sq (proj2 Pn) _ H) as (e & r & t' & -> & Sr & Et & D).
    injection Et as _ <-. exists w, e, r. split; [exact Eps|]. split; [exact Fw|]. split; [exact Sq|]. split; [exact Sr | exact D].
  - intros (w & e & r & Eps & Fw & Sq & Sr & D). destruct (D 0) as [v Dv]. exact (reads_document F parse cs ps w e r 0 t v Sc L C Eps Fw Sr Dv).
Qed.
Print Assumptions von_document_exact.

(** A text that is a document after a blank and goes on after it *)
Example von_document_run : exists ps w e r t, cut von_piece (lit " [1] ?") ps /\ ps = w ++ e ++ r /\ Forall trivia w /\ settled (e ++ r) /\ settled r /\ forall o, exists v, document (@Some str) o e r t v.
Proof.
  assert (Sc : Forall is_scalar (lit " [1] ?")) by (repeat (apply Forall_cons; [unfold is_scalar; cbn; lia|]); apply Forall_nil). destruct (von_tokens_exact _ Sc) as (ps & C & _ & _). exists ps.
  assert (Pn : Forall (fun p : piece => fst p = Some NNumber -> exists x, (@Some str) (encode (without_underscores (snd p))) = Some x) ps) by (apply Forall_forall; intros p _ _; now eexists).
  destruct (proj1 (von_document_exact (@Some str) _ ps Sc ltac:(vm_compute; reflexivity) C Pn (gnode NValue [gnode NArray [leaf NLeftBracket (lit "["); gnode NElement [gnode NValue [leaf NNumber (lit "1")]]; leaf NRightBracket (lit "]"); leaf NWhitespace (lit " ")]])) ltac:(vm_compute; reflexivity)) as (w & e & r & H). now exists w, e, r, (gnode NValue [gnode NArray [leaf NLeftBracket (lit "["); gnode NElement [gnode NValue [leaf NNumber (lit "1")]]; leaf NRightBracket (lit "]"); leaf NWhitespace (lit " ")]]).
Qed.
(** A name with a payload, entries without a comma, a comma at the end *)
Example von_build_run : von_build Some (lit "a = A { x = 1_0 } b = ['c' true,]") = Some (Some (VObject
  [(lit "a", VEnum (lit "A") (Some (VObject [(lit "x", VNumber (lit "10") (12, 15), (8, 16))] (6, 18))) (4, 18), (0, 18));
   (lit "b", VArray [VString (lit "c") (23, 26); VBoolean true (27, 31)] (22, 33), (18, 33))] (0, 33)), []).
Proof. vm_compute. reflexivity. Qed.

(** Blanks before the text should not matter: they make [true] false and a number an error, and where a character has
    more than one byte the builder panics. *)
Theorem von_leading_refuted :
  von_build (@Some str) (lit "true") = Some (Some (VBoolean true (0, 4)), []) /\ von_build (@Some str) (lit " true") = Some (Some (VBoolean false (0, 4)), []) /\
  von_build (@Some str) (lit "a=12") = Some (Some (VObject [(lit "a", VNumber (lit "12") (2, 4), (0, 4))] (0, 4)), []) /\
  von_build (@Some str) (10%Z :: lit "a=12") = Some (Some (VObject [(10%Z :: [], VNumber (lit "=1") (2, 4), (0, 4))] (0, 4)), []) /\
  exists cs, Forall is_scalar cs /\ von_lex (encode cs) <> None /\ von_build (@Some str) (encode cs) = None.
Proof.
  split; [vm_compute; reflexivity|]. split; [vm_compute; reflexivity|]. split; [vm_compute; reflexivity|]. split; [vm_compute; reflexivity|].
  exists [35; 233; 10; 91; 34; 97; 34; 93]%Z. split; [repeat (apply Forall_cons; [unfold is_scalar; cbn; lia|]); apply Forall_nil|]. split; [vm_compute; discriminate | vm_compute; reflexivity].
Qed.
Print Assumptions von_leading_refuted.

(** Without them the builder does not panic. *)
Theorem von_build_total_partial {F} (parse : str -> option F) cs ps : Forall is_scalar cs -> (Z.of_nat (length (encode cs)) < 2 ^ 32)%Z -> cut von_piece cs ps -> settled ps ->
  von_build parse (encode cs) <> None.
Proof. intros Sc L C Se. exact (no_panic F parse cs ps ps Sc L C Se eq_refl). Qed.
Print Assumptions von_build_total_partial.
Example von_build_total_run : von_build (@Some str) (encode (lit "{'" ++ [233%Z] ++ lit "' = [")) = Some (Some (VObject [(encode (lit "'" ++ [233%Z] ++ lit "'"), VArray [] (8, 9), (1, 9))] (0, 9)), [(2, 9)]).
Proof. vm_compute. reflexivity. Qed.

(** What follows the first value should be read or reported. *)
Theorem von_leftover_refuted :
  von_build (@Some str) (lit "{} {a=1}") = Some (Some (VObject [] (0, 3)), []) /\ von_build (@Some str) (lit "1 ] , ?") = Some (Some (VNumber (lit "1") (0, 1)), []) /\
  von_build (@Some str) (lit """a"" = 1") = Some (Some (VString (lit "a") (0, 3)), []) /\ von_build (@Some str) (lit "a = 1, ]") = Some (Some (VObject [(lit "a", VNumber (lit "1") (4, 5), (0, 5))] (0, 7)), []).
Proof. split; [vm_compute; reflexivity|]. split; [vm_compute; reflexivity|]. split; vm_compute; reflexivity. Qed.
Print Assumptions von_leftover_refuted.

(** ** Writing *)
Theorem von_round_trip_partial {F} (parse : str -> option F) show v : printable parse show v -> at_root v -> (Z.of_nat (length (von_print show v)) < 2 ^ 32)%Z ->
  exists v', von_build parse (von_print show v) = Some (Some v', []) /\ bare v' = bare v.
Proof. exact (round_trip F parse show v). Qed.
Print Assumptions von_round_trip_partial.

Definition sample : vvalue str := VObject [(lit "a", VArray [VString (lit "it\""s") (0, 0); VNumber (lit "1.5") (0, 0); VBoolean false (0, 0)] (0, 0), (0, 0)); (lit "b", VEnum (lit "A") (Some (VObject [] (0, 0))) (0, 0), (0, 0))] (0, 0).
Example von_round_trip_run : printable (@Some str) (fun x => x) sample /\ at_root sample /\ von_print (fun x => x) sample = lit "{a=[""it\""s"",1.5,false],b=A {}}".
Proof.
  assert (P : forall c, (97 <= c <= 122 \/ 65 <= c <= 90)%Z -> plain_name [c]) by (intros c H; exists c, []; split; [reflexivity|]; split; [left; exact H|]; split; [constructor|]; repeat split; discriminate).
  split; [|split; [exact I | reflexivity]]. constructor. constructor; [split; [apply P; cbn; lia|]|constructor; [split; [apply P; cbn; lia|] | constructor]].
  - constructor. repeat (apply Forall_cons; [|]); [| | | apply Forall_nil].
    + cbn [fst snd]. change (lit "it\""s") with (encode (lit "it\""s")). constructor; [repeat (apply Forall_cons; [unfold is_scalar; cbn; lia|]); apply Forall_nil|]. apply LBPlain; [discriminate | discriminate|]. apply LBPlain; [discriminate | discriminate|]. apply LBEscaped; [reflexivity|]. apply LBPlain; [discriminate | discriminate | constructor].
    + constructor. split; [|reflexivity]. exists (lit "1"), (lit ".5"), []. split; [apply (NuWhole [] (lit "1") (lit ".5") []); [now left | exists 49%Z, []; repeat split; [cbn; lia | cbn; lia | constructor] | right; exists (lit "5"); split; [reflexivity|]; exists [], 53%Z, []; repeat split; [constructor | cbn; lia | cbn; lia | constructor] | now left]|]. split; [intros c E; discriminate | intros E; discriminate].
    + constructor.
  - cbn [fst snd]. constructor; [apply P; cbn; lia | constructor; constructor | constructor].
Qed.

(** Any value should come back.  A quote in a string ends it, an enum and its payload become two elements, infinities
    and the undefined become enums, a tuple and an enum alone are errors, and names are not quoted. *)
Definition again (v : vvalue str) : option (option (vvalue str) * list (nat * nat)) := option_map (fun p => (option_map bare (fst p), snd p)) (von_build Some (von_print (fun x => x) v)).
Theorem von_round_trip_refuted : let o := (0, 0) in
  again (VString (lit "a""b") o) = Some (Some (VString (lit "a") o), []) /\
  again (VArray [VEnum (lit "A") (Some (VNull o)) o] o) = Some (Some (VArray [VEnum (lit "A") None o; VNull o] o), []) /\
  again (VArray [VInf o; VNan o; VUndefined o] o) = Some (Some (VArray [VEnum (lit "inf") None o; VEnum (lit "nan") None o; VEnum (lit "undefined") None o] o), []) /\
  (exists e, again (VTuple [VNull o] o) = Some (None, e)) /\ (exists e, again (VEnum (lit "A") None o) = Some (None, e)) /\
  (forall e, again (VObject [(lit "a b", VNull o, o)] o) <> Some (Some (VObject [(lit "a b", VNull o, o)] o), e)) /\
  again (VObject [(lit "a=null,b", VNull o, o)] o) = Some (Some (VObject [(lit "a", VNull o, o); (lit "b", VNull o, o)] o), []).
Proof.
  cbv zeta. split; [vm_compute; reflexivity|]. split; [vm_compute; reflexivity|]. split; [vm_compute; reflexivity|]. split; [eexists; vm_compute; reflexivity|]. split; [eexists; vm_compute; reflexivity|]. split; [intros e; vm_compute; discriminate | vm_compute; reflexivity].
Qed.
Print Assumptions von_round_trip_refuted.

(** ** Names of entries *)
(** The value of a quoted text is what is between the quotes, with its backslashes. *)
Theorem von_string_value {F} (parse : str -> option F) q b : quote q -> b <> [] -> literal_body q (Some 92%Z) b -> Forall is_scalar b -> (Z.of_nat (length (encode (q :: b ++ [q]))) < 2 ^ 32)%Z ->
  von_build parse (encode (q :: b ++ [q])) = Some (Some (VString (encode b) (0, length (encode (q :: b ++ [q])))), []).
Proof.
  intros Q Nb B Sc L. assert (Sq : is_scalar q) by (unfold is_scalar; destruct Q as [-> | ->]; lia). assert (S1 : Forall is_scalar (q :: b ++ [q])) by (constructor; [assumption | apply Forall_app; split; [assumption | now constructor]]).
  apply (built_document F parse (q :: b ++ [q]) [(Some NString, q :: b ++ [q])] [(Some NString, q :: b ++ [q])] [] (gnode NValue (leaves [(Some NString, q :: b ++ [q])]))); [assumption | assumption | | reflexivity | intros p X; discriminate|].
  - pose proof (cut_one NString (q :: b ++ [q]) [] [] ltac:(discriminate) (PEscaped q b [] Q Nb B) (CutEnd _)) as C. now rewrite app_nil_r in C.
  - apply DoValue; [intros (k & s & r & E & [<- | []]); discriminate|]. apply (VaString F parse 0 _ [] (q :: b ++ [q]) b); [exists []; now split|]. change (q :: b ++ [q]) with ([] ++ repeat q 1 ++ b ++ repeat q 1). apply CoFull; [now left | assumption | discriminate | discriminate | assumption|]. apply VonLexProofs.body_ends; [now apply VonLexProofs.quote_plain | assumption].
Qed.
Print Assumptions von_string_value.

Example von_string_value_run : von_build (@Some str) (lit "'a\'""'") = Some (Some (VString (lit "a\'""") (0, 6)), []).
Proof. vm_compute. reflexivity. Qed.

Lemma key_named {F} (parse : str -> option F) q b n : quote q -> b <> [] -> literal_body q (Some 92%Z) b -> Forall is_scalar b -> named (q :: b ++ [q]) n -> (Z.of_nat (length (encode (lit "{" ++ (q :: b ++ [q]) ++ lit "=null}"))) < 2 ^ 32)%Z ->
  exists v, von_build parse (encode (lit "{" ++ (q :: b ++ [q]) ++ lit "=null}")) = Some (Some v, []) /\ bare v = VObject [(encode n, VNull (0, 0), (0, 0))] (0, 0).
Proof.
  intros Q Nb B Sc Hn L. assert (Sq : is_scalar q) by (unfold is_scalar; destruct Q as [-> | ->]; lia). set (s := q :: b ++ [q]) in *. assert (S1 : Forall is_scalar (lit "{" ++ s ++ lit "=null}")).
  { apply Forall_app. split; [constructor; [unfold is_scalar; cbn; lia | constructor]|]. apply Forall_app. split; [constructor; [assumption | apply Forall_app; split; [assumption | now constructor]]|]. repeat (apply Forall_cons; [unfold is_scalar; cbn; lia|]); apply Forall_nil. }
  set (a := [(Some NLeftBrace, lit "{")] : list piece). set (k := [(Some NString, s)] : list piece). set (e := [(Some NEq, lit "=")] : list piece). set (v := [(Some NNull, lit "null")] : list piece). set (z := [(Some NRightBrace, lit "}")] : list piece).
  assert (T : forall k s, tok k s [(Some k, s)]) by (intros k0 s0; exists []; now split).
  eexists. split.
  - eapply (built_document F parse _ (a ++ (k ++ e ++ v) ++ z) (a ++ (k ++ e ++ v) ++ z) []); [assumption | assumption | | now rewrite app_nil_r | intros p X; discriminate|].
    + unfold a, k, e, v, z. cbn [app]. change (lit "{" ++ s ++ lit "=null}") with (lit "{" ++ s ++ lit "=" ++ lit "null" ++ lit "}" ++ []). apply cut_one; [discriminate | apply PMark; cbn; tauto|]. apply cut_one; [discriminate | now apply PEscaped|]. apply cut_one; [discriminate | apply PMark; cbn; tauto|].
      apply cut_one; [discriminate | apply PWord; [left; left; cbn; lia | split; [repeat (apply Forall_cons; [left; left; left; cbn; lia|]); apply Forall_nil | intros c E; injection E as <-; unfold word, start, letter, digit; lia] | intros (q' & x & _ & E); discriminate | right; left; now split]|].
      apply cut_one; [discriminate | apply PMark; cbn; tauto | constructor].
    + apply DoValue; [intros (k' & s' & r & E & [<- | []]); discriminate|]. eapply (VaObject F parse 0 a (k ++ e ++ v) z); [apply T | apply T|]. rewrite <- (app_nil_r (k ++ e ++ v)). apply EnSome; [|constructor; intros (k' & s' & r & E & I); injection E as <- <- <-; cbn in I; intuition discriminate].
      eapply (EnEntry F parse _ k e v); [right; apply T | apply T | exact Hn|]. apply VaNull, T.
  - reflexivity.
Qed.
(** A name in double quotes is what is between them, if that does not end with one. *)
Theorem von_key_double {F} (parse : str -> option F) b : b <> [] -> literal_body 34%Z (Some 92%Z) b -> Forall is_scalar b -> (forall b', b <> b' ++ [34%Z]) -> (Z.of_nat (length (encode (lit "{" ++ (34%Z :: b ++ [34%Z]) ++ lit "=null}"))) < 2 ^ 32)%Z ->
  exists v, von_build parse (encode (lit "{" ++ (34%Z :: b ++ [34%Z]) ++ lit "=null}")) = Some (Some v, []) /\ bare v = VObject [(encode b, VNull (0, 0), (0, 0))] (0, 0).
Proof.
  intros Nb B Sc Ne L. apply key_named; [now left | assumption | assumption | assumption | | assumption]. exists [34%Z], [34%Z]. split; [reflexivity|]. split; [repeat constructor|]. split; [repeat constructor|]. split; [|assumption]. intros E. now apply (VonLexProofs.body_ends 34%Z b (VonLexProofs.quote_plain 34%Z (or_introl eq_refl)) B 34%Z E).
Qed.
Print Assumptions von_key_double.
(** A name in single quotes has them in it. *)
Theorem von_key_single {F} (parse : str -> option F) b : b <> [] -> literal_body 39%Z (Some 92%Z) b -> Forall is_scalar b -> (Z.of_nat (length (encode (lit "{" ++ (39%Z :: b ++ [39%Z]) ++ lit "=null}"))) < 2 ^ 32)%Z ->
  exists v, von_build parse (encode (lit "{" ++ (39%Z :: b ++ [39%Z]) ++ lit "=null}")) = Some (Some v, []) /\ bare v = VObject [(encode (39%Z :: b ++ [39%Z]), VNull (0, 0), (0, 0))] (0, 0).
Proof.
  intros Nb B Sc L. apply key_named; [now right | assumption | assumption | assumption | | assumption]. exists [], []. split; [now rewrite app_nil_r|]. split; [constructor|]. split; [constructor|]. split; [discriminate|]. intros n' E. rewrite app_comm_cons in E. apply app_inj_tail in E. now destruct E.
Qed.
Print Assumptions von_key_single.
Example von_key_run : literal_body 34%Z (Some 92%Z) (lit "a b") /\ von_build (@Some str) (lit "{""a b""=null}") = Some (Some (VObject [(lit "a b", VNull (7, 11), (1, 11))] (0, 12)), []).
Proof. split; [|vm_compute; reflexivity]. repeat (apply LBPlain; [discriminate | discriminate|]). constructor. Qed.

(** The name of an entry should be the value of the literal: single quotes, [raw] and more than one quote are in the
    name, and an escaped quote at the end is not. *)
Theorem von_keys_refuted :
  (exists e, von_build (@Some str) (lit "{'a'=null}") = Some (Some (VObject [(lit "'a'", VNull (5, 9), (1, 9))] (0, 10)), e)) /\
  von_build (@Some str) (lit "['a',raw""b"",""c\""""]") = Some (Some (VArray [VString (lit "a") (1, 4); VString (lit "b") (5, 11); VString (lit "c\""") (12, 17)] (0, 18)), []) /\
  von_build (@Some str) (lit "{raw""b""=null}") = Some (Some (VObject [(lit "raw""b", VNull (8, 12), (1, 12))] (0, 13)), []) /\
  von_build (@Some str) (lit "{""c\""""=null}") = Some (Some (VObject [(lit "c\", VNull (7, 11), (1, 11))] (0, 12)), []).
Proof. split; [eexists; vm_compute; reflexivity|]. split; [vm_compute; reflexivity|]. split; vm_compute; reflexivity. Qed.
Print Assumptions von_keys_refuted.
