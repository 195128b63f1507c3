(** What the XML lexer, parser, builder and printer do. *)
From Verif Require Import PyProofs.
From Verif Require Import Base Utf8 Utf8Facts ScanSpec CursorModel CursorSpec CursorProofs RopeModel LexModel TreeModel TreeSpec TreeProofs ParserModel ParserSpec ParserProofs.
From Verif Require Import JsonLangSpec JsonLexProofs JsonAstBuildProofs LangModel LangSpec LangLexProofs LangParseProofs IniModel XmlModel XmlSpec XmlLexProofs XmlProofs XmlBuildProofs.

Definition fits (s : str) : Prop := (Z.of_nat (length s) < 2 ^ 32)%Z.

(** C165: the lexer cuts every text into the pieces of the specification, and there is one way only to do it; every
    piece is a token. *)
Theorem xml_tokens_exact cs : Forall is_scalar cs ->
  exists ps, cut xml_piece cs ps /\ (forall ps', cut xml_piece cs ps' -> ps' = ps) /\ text_of_pieces ps = cs /\ Forall (fun p => exists k, fst p = Some k) ps /\
    xml_lex (encode cs) = Some (spans 0 ps ++ [Token XError (length (encode cs)) (length (encode cs))]).
Proof.
  intros F. destruct (xml_lex_cut cs F) as (ps & C & E). exists ps. split; [assumption|]. split; [|split; [now apply cut_text in C|]; split; [apply (proj2 (cut_sep cs ps C)) | assumption]].
  intros ps' C'. symmetry. apply (cut_unique xml_piece cs); [exact xml_pieces_unique | assumption | assumption].
Qed.
Print Assumptions xml_tokens_exact.

(** A piece at a time, for the examples *)
Lemma cut_first cs k s r ps : cs <> [] -> xml1 cs = (k, s, r) -> cut xml_piece r ps -> cut xml_piece cs ((Some k, s) :: ps).
Proof. intros N E C. pose proof (xml1_piece cs N) as P. rewrite E in P. destruct P as (<- & Ns & P). now constructor. Qed.
Ltac scalars := repeat (apply Forall_cons; [unfold is_scalar; cbn; lia|]); apply Forall_nil.
Ltac pieces := repeat (eapply cut_first; [discriminate | vm_compute; reflexivity|]); apply CutEnd.

(** A document type with brackets, references without a digit and without their semicolon, and a name *)
Example xml_tokens_case : let cs := lit "<!doctype a [<>]>&#x;&amp b" in
  Forall is_scalar cs /\ cut xml_piece cs [(Some XDoctype, lit "<!doctype a [<>]>"); (Some XError, lit "&#x"); (Some XSemicolon, lit ";"); (Some XError, lit "&amp"); (Some XWhitespace, lit " "); (Some XIdentifier, lit "b")].
Proof. cbv zeta. split; [scalars | pieces]. Qed.

(** C166: the parser. *)
Theorem xml_parse_exact cs ps : Forall is_scalar cs -> fits (encode cs) -> cut xml_piece cs ps ->
  (forall kids, xml_parse (encode cs) = Some (Tree (gnode XRoot kids), []) <-> document ps kids) /\
  ((forall kids, ~ document ps kids) -> exists off, xml_parse (encode cs) = Some (Failed, [(0, off)])).
Proof.
  intros F L C. destruct (parse_text cs ps F L C) as [(kids & D & E) | (N & off & E)].
  - split; [|intros N; now destruct (N kids)]. intros kids'. split.
    + rewrite E. intros X. injection X as X. now subst kids'.
    + intros D'. rewrite E. pose proof (p_document_complete (S (length ps)) ps kids D (S (length ps)) ltac:(lia) ltac:(lia)) as P. rewrite (p_document_complete (S (length ps)) ps kids' D' (S (length ps)) ltac:(lia) ltac:(lia)) in P. injection P as ->. reflexivity.
  - split; [|intros _; now exists off]. intros kids. rewrite E. split; [discriminate | intros D; now destruct (N kids)].
Qed.
Print Assumptions xml_parse_exact.

(** A tree with a comment, a text and an element without content in it, and one whose second element is not closed *)
Example xml_parse_case : xml_parse (lit "<a><!--c-->x<b/></a>") = Some (Tree (gnode XRoot
  [gnode XElement [gnode XStartTag [leaf XLeftAngle (lit "<"); leaf XIdentifier (lit "a"); leaf XRightAngle (lit ">")];
                   gnode XElement [leaf XLeftAngle (lit "<"); leaf XIdentifier (lit "b"); gnode XSelfClosing [leaf XSlashRightAngle (lit "/>")]];
                   gnode XEndTag [leaf XLeftAngleSlash (lit "</"); leaf XIdentifier (lit "a"); leaf XRightAngle (lit ">")]]]), []) /\
  exists off, xml_parse (lit "<a><b></a>") = Some (Failed, [(0, off)]).
Proof. split; [vm_compute; reflexivity | eexists; vm_compute; reflexivity]. Qed.

(** What the parser accepts has elements and tags only: no attribute and no prolog. *)
Theorem xml_tree_kinds cs root errs : Forall is_scalar cs -> fits (encode cs) -> xml_parse (encode cs) = Some (Tree root, errs) ->
  exists ch len, root = GNode XRoot len ch /\ errs = [] /\ Forall (fun k => In k [XElement; XStartTag; XEndTag; XSelfClosing]) (concat (map node_kinds ch)).
Proof.
  intros F L E. destruct (xml_lex_cut cs F) as (ps & C & _). destruct (parse_text cs ps F L C) as [(kids & D & E') | (_ & off & E')]; rewrite E' in E; [|discriminate E]. injection E as <- <-. exists kids, (list_sum (map width kids)).
  split; [reflexivity|]. split; [reflexivity|]. now apply document_kinds with ps.
Qed.
Print Assumptions xml_tree_kinds.

(** Names end at white space, and there no tag goes on: every text that starts with a name and white space is refused. *)
Theorem xml_space_after_name n c rest : xml_name n -> char_is_whitespace c = true -> Forall is_scalar (c :: rest) -> fits (encode (lit "<" ++ n ++ c :: rest)) ->
  (exists off, xml_parse (encode (lit "<" ++ n ++ c :: rest)) = Some (Failed, [(0, off)])) /\ xml_value (encode (lit "<" ++ n ++ c :: rest)) = Some None.
Proof.
  intros Hn Hc F L. destruct (xml_lex_cut (c :: rest) F) as (ps & C & _). apply cut_cases in C. destruct C as [[X _] | (k & s & r & q & E & -> & Ns & P & C)]; [discriminate X|].
  assert (Nc : ~ name_char c). { intros N. apply name_char_ascii in N as A. unfold name_char, name_start, letter, digit in N. unfold PyProofs.ascii in A. assert (W : char_is_whitespace c = false) by (unfold char_is_whitespace; lia). congruence. }
  assert (Kw : k = Some XWhitespace). { destruct (piece_xml1 k s r P Ns) as (k0 & -> & X). rewrite <- E in X. unfold xml1 in X. rewrite Hc in X. now injection X as <- _ _. } subst k.
  assert (C3 : cut xml_piece (lit "<" ++ n ++ c :: rest) ((Some XLeftAngle, lit "<") :: (Some XIdentifier, n) :: (Some XWhitespace, s) :: q)).
  { apply cut_less; [assumption|]. apply cut_name; [assumption | now apply ends_name|]. rewrite E. now constructor. }
  assert (F' : Forall is_scalar (lit "<" ++ n ++ c :: rest)). { apply Forall_app. split; [scalars|]. apply Forall_app. split; [|assumption]. apply (proj2 (ascii_same n (name_ascii n Hn))). }
  assert (N : forall kids, ~ document ((Some XLeftAngle, lit "<") :: (Some XIdentifier, n) :: (Some XWhitespace, s) :: q) kids).
  { intros kids D. remember ((Some XLeftAngle, lit "<") :: (Some XIdentifier, n) :: (Some XWhitespace, s) :: q) as l eqn:El. destruct D as [| e t r' ts El' _ | p r' ts Np _]; [discriminate El | | injection El as -> _; now apply Np].
    destruct El' as [a m z _ _ Z | a m z body kids a' n' z' _ _ Z _ _ _ _]; cbn [app] in El; injection El as _ _ -> _; discriminate Z. }
  destruct (parse_text _ _ F' L C3) as [(kids & D & _) | (_ & off & X)]; [now destruct (N kids)|]. split; [now exists off|]. unfold xml_value. now rewrite X.
Qed.
Print Assumptions xml_space_after_name.

(** So an element with an attribute is an error, and the [XmlNode] of a document is never one with attributes. *)
Theorem xml_attributes_refuted : xml_value (lit "<a b=""c""/>") = Some None /\ xml_value (lit "<a b=""c""></a>") = Some None /\ xml_value (lit "<a />") = Some None.
Proof.
  repeat split; (eapply (xml_space_after_name (lit "a") 32%Z); [exists 97%Z, []; split; [reflexivity|]; split; [unfold name_start, letter; lia | constructor] | reflexivity | scalars | vm_compute; reflexivity]).
Qed.
Print Assumptions xml_attributes_refuted.

(** C167: texts of elements only. *)
Lemma root_values ts : Forall named ts -> forall pre, Forall PyProofs.ascii (pre ++ concat (map written ts)) ->
  root_elements (pre ++ concat (map written ts)) (map tree_of ts) (length pre) = Some (values_at (length pre) ts).
Proof.
  induction 1 as [| t ts Ht _ IH]; intros pre A; [reflexivity|]. cbn [map concat] in *.
  assert (Hd : exists ch, tree_of t = GNode XElement (list_sum (map width ch)) ch) by (destruct t; eexists; reflexivity). destruct Hd as (ch & Ek). rewrite Ek. cbn [root_elements Nat.eqb XElement]. rewrite <- Ek.
  pose proof (build_tags t Ht pre (concat (map written ts)) A) as G. unfold gives in G. rewrite G. pose proof (tree_width t Ht) as Wk. rewrite Ek in Wk. cbn [width] in Wk. rewrite Wk. rewrite <- app_length. rewrite app_assoc. rewrite IH; [|now rewrite <- app_assoc]. rewrite app_length. reflexivity.
Qed.
Theorem xml_elements_exact ts : Forall named ts -> fits (concat (map written ts)) ->
  xml_parse (concat (map written ts)) = Some (Tree (gnode XRoot (map tree_of ts)), []) /\
  xml_value (concat (map written ts)) = Some (Some (match ts with t :: _ => value_at 0 t | [] => VText [] end)).
Proof.
  intros N L. assert (A : Forall PyProofs.ascii (concat (map written ts))). { clear L. induction N as [| t ts Ht _ IH]; [constructor|]. cbn. apply Forall_app. split; [now apply written_ascii | assumption]. }
  destruct (ascii_same _ A) as [E F]. pose proof L as L'. unfold fits in L'. rewrite <- E in L'.
  assert (P : xml_parse (concat (map written ts)) = Some (Tree (gnode XRoot (map tree_of ts)), [])). { pose proof (xml_parse_exact _ _ F L' (cut_all ts N)) as [X _]. rewrite E in X. apply X. now apply document_tags. }
  split; [assumption|]. unfold xml_value. rewrite P. unfold build_root, gnode. pose proof (root_values ts N [] A) as R. cbn [app length] in R. rewrite R. destruct ts; reflexivity.
Qed.
Print Assumptions xml_elements_exact.
Lemma name_a : xml_name (lit "a") /\ xml_name (lit "b").
Proof. split; eexists; eexists; (split; [reflexivity|]); (split; [unfold name_start, letter; cbn; lia | constructor]). Qed.
Example xml_elements_case : let ts := [Full (lit "a") [Empty (lit "b"); Full (lit "b") [] (lit "b")] (lit "a"); Empty (lit "b")] in
  Forall named ts /\ concat (map written ts) = lit "<a><b/><b></b></a><b/>" /\
  xml_value (lit "<a><b/><b></b></a><b/>") = Some (Some (VElement (lit "a") [] [VElement [] [] [] (3, 7); VElement (lit "b") [] [] (7, 14)] (0, 18))).
Proof. cbv zeta. destruct name_a. split; [repeat constructor; assumption | split; vm_compute; reflexivity]. Qed.

(** The name at the end of an element is not compared with that at its start. *)
Theorem xml_nesting_refuted : (forall n m, xml_name n -> xml_name m -> fits (written (Full n [] m)) -> xml_value (written (Full n [] m)) = Some (Some (VElement n [] [] (0, length (written (Full n [] m)))))) /\
  xml_value (lit "<a><b></a></b>") = Some (Some (VElement (lit "a") [] [VElement (lit "b") [] [] (3, 10)] (0, 14))).
Proof.
  split; [|vm_compute; reflexivity]. intros n m Hn Hm L. pose proof (xml_elements_exact [Full n [] m]) as X. cbn [map concat] in X. rewrite app_nil_r in X. destruct X as [_ X]; [repeat constructor; assumption | assumption|]. exact X.
Qed.
Print Assumptions xml_nesting_refuted.

(** C168: [parse] does not panic, and all it gives is elements in elements. *)
Theorem xml_value_bare cs : Forall is_scalar cs -> fits (encode cs) ->
  exists r, xml_value (encode cs) = Some r /\ forall v, r = Some v -> v = VText [] \/ bare v.
Proof.
  intros F L. destruct (xml_lex_cut cs F) as (ps & C & _). unfold xml_value. destruct (parse_text cs ps F L C) as [(kids & D & ->) | (_ & off & ->)]; [|exists None; now split].
  unfold build_root, gnode. destruct (root_bare (encode cs) kids (document_bare (encode cs) ps kids D) 0) as (vs & -> & B & _). cbn [option_map]. eexists. split; [reflexivity|]. intros v X. injection X as <-. destruct B; [now left | now right].
Qed.
Print Assumptions xml_value_bare.
(** A text without an element is an empty text, whatever it is. *)
Example xml_value_case : xml_value (lit "abc &amp; <!-- x --> 12") = Some (Some (VText [])).
Proof. vm_compute. reflexivity. Qed.

(** Texts are lost; a name is lost in an element without content, and is another one where white space comes first *)
Theorem xml_text_lost_refuted :
  xml_value (lit "<a>x</a>") = Some (Some (VElement (lit "a") [] [] (0, 7))) /\
  xml_value (lit "<a><![CDATA[x]]>&lt;<?p q?><!--c--></a>") = Some (Some (VElement (lit "a") [] [] (0, 7))) /\
  xml_value (lit "<n/>") = Some (Some (VElement [] [] [] (0, 4))) /\
  xml_value (10%Z :: lit "<abc></abc>") = Some (Some (VElement (lit "<ab") [] [] (0, 11))).
Proof. repeat split; vm_compute; reflexivity. Qed.
Print Assumptions xml_text_lost_refuted.

(** C169: printing.  Every element without attributes that can be written is read back, and never as itself: its first
    element without children has no name any more. *)
Fixpoint tags_of (v : xvalue) : tags :=
  match v with
  | VElement n _ [] _ => Empty n
  | VElement n _ ks _ => Full n (map tags_of ks) n
  | _ => Empty []
  end.
Section WritableInd.
  Variable P : xvalue -> Prop.
  Hypothesis H : forall n ks sp, xml_name n -> Forall writable ks -> Forall P ks -> P (VElement n [] ks sp).
  Fixpoint writable_ind' v (w : writable v) : P v :=
    match w with
    | Writable n ks sp Hn Hk => H n ks sp Hn Hk ((fix all l (f : Forall writable l) : Forall P l := match f with Forall_nil _ => Forall_nil P | Forall_cons x a b => Forall_cons x (writable_ind' x a) (all _ b) end) ks Hk)
    end.
End WritableInd.
Lemma tags_writable v : writable v -> named (tags_of v) /\ xml_to_string v = written (tags_of v).
Proof.
  induction 1 as [n ks sp Hn Hk IH] using writable_ind'. destruct ks as [| k ks]; [split; [now constructor | reflexivity]|].
  assert (X : Forall named (map tags_of (k :: ks)) /\ concat (map xml_to_string (k :: ks)) = concat (map written (map tags_of (k :: ks)))).
  { clear Hk. induction IH as [| x l [N E] _ IHl]; [split; [constructor | reflexivity]|]. destruct IHl as [Nl El]. cbn [map concat]. split; [now constructor | now rewrite E, El]. }
  destruct X as [N E]. split; [now constructor|]. cbn [xml_to_string tags_of written]. change (map (fun a => _) []) with (@nil (list Z)). cbn [concat app]. cbv beta iota. f_equal. f_equal. f_equal. change (concat (map xml_to_string (k :: ks)) ++ lit "</" ++ n ++ lit ">" = concat (map written (map tags_of (k :: ks))) ++ lit "</" ++ n ++ lit ">"). now rewrite E.
Qed.
Lemma value_differs v : writable v -> forall off, value_at off (tags_of v) <> v.
Proof.
  induction 1 as [n ks sp Hn Hk IH] using writable_ind'. intros off. destruct ks as [| k ks].
  - cbn [tags_of value_at shown]. intros E. injection E as E _. destruct Hn as (c & s & -> & _). discriminate E.
  - inversion IH as [| ? ? I _]; subst. cbn [tags_of map value_at]. intros E. injection E as E _. now apply I in E.
Qed.
Theorem xml_round_trip_never v : writable v -> fits (xml_to_string v) ->
  exists w, xml_value (xml_to_string v) = Some (Some w) /\ bare w /\ w <> v.
Proof.
  intros W L. destruct (tags_writable v W) as [N E]. rewrite E in *. exists (value_at 0 (tags_of v)).
  pose proof (xml_elements_exact [tags_of v]) as X. cbn [map concat] in X. rewrite app_nil_r in X. destruct X as [_ X]; [now repeat constructor | assumption|]. split; [assumption|]. split; [|now apply value_differs].
  clear. generalize 0. induction (tags_of v) as [n | n ks m IH] using tags_ind'; intros off; [repeat constructor|]. cbn [value_at]. constructor. generalize (off + length (lit "<" ++ n ++ lit ">")). induction IH as [| k ks Hk _ IHk]; intros o; [constructor|]. constructor; [apply Hk | apply IHk].
Qed.
Print Assumptions xml_round_trip_never.
Example xml_round_trip_case : writable (VElement (lit "a") [] [VElement (lit "b") [] [] (0, 0)] (0, 0)) /\
  xml_to_string (VElement (lit "a") [] [VElement (lit "b") [] [] (0, 0)] (0, 0)) = lit "<a><b/></a>".
Proof. destruct name_a. split; [repeat constructor; assumption | reflexivity]. Qed.

(** With attributes or a text it is an error, or another node; nothing is escaped. *)
Theorem xml_printing_refuted :
  xml_value (xml_to_string (VElement (lit "a") [XAttr (lit "k") (lit "v") (0, 0)] [] (0, 0))) = Some None /\
  xml_value (xml_to_string (VElement (lit "a") [] [VText (lit "x")] (0, 0))) = Some (Some (VElement (lit "a") [] [] (0, 7))) /\
  xml_to_string (VText (lit "</a><b>")) = lit "</a><b>" /\
  xml_value (xml_to_string (VElement (lit "a") [] [VText (lit "</a><b>")] (0, 0))) = Some (Some (VElement (lit "a") [] [] (0, 7))) /\
  xml_value (xml_to_string (VElement (lit "a") [] [VText (lit "1<2")] (0, 0))) = Some None.
Proof. repeat split; try (vm_compute; congruence). Qed.
Print Assumptions xml_printing_refuted.
