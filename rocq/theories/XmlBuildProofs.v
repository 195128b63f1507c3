(** The XML lexer, parser and builder together. *)
From Verif Require Import PyProofs.
From Verif Require Import Base Utf8 Utf8Facts ScanSpec CursorModel CursorSpec CursorProofs RopeModel LexModel TreeModel TreeSpec TreeProofs ParserModel ParserSpec ParserProofs.
From Verif Require Import JsonLangSpec JsonLexProofs JsonAstBuildProofs LangModel LangSpec LangLexProofs LangParseProofs IniModel XmlModel XmlSpec XmlLexProofs XmlProofs.

(** ** Neighbours *)
Ltac split_xml1 H :=
  repeat match type of H with
  | context [if ?b then _ else _] => let E := fresh "B" in destruct b eqn:E
  | context [match until ?e ?x with _ => _ end] => destruct (until e x) as [[? ?] ?]
  | context [match to_angle ?e ?x with _ => _ end] => destruct (to_angle e x) as [[? ?] ?]
  | context [match char_run ?p ?x with _ => _ end] => destruct (char_run p x)
  | context [match drop_run ?p ?x with _ => _ end] => destruct (drop_run p x)
  end; try discriminate H.
Lemma xml1_ident c r s t : xml1 (c :: r) = (XIdentifier, s, t) -> xml_name_start c = true /\ t = drop_run xml_name_char r.
Proof.
  intros H. cbn [xml1] in H. unfold within, refer in H. 
  destruct (xml_name_start c) eqn:St.
  - split; [reflexivity|]. apply startb in St. destruct (name_start_cases c St) as (Sp & ? & ? & ? & ? & ? & ? & ?). apply startb in St.
    pose proof (dec_head c r Sp H0 (fun E => match H1 E with end) H2 H3 H4 H5 H6) as D. rewrite St in D. cbn [xml1] in D. unfold within, refer in D. rewrite St in D. rewrite D in H. now injection H.
  - exfalso. split_xml1 H.
Qed.
Lemma xml1_question c r s t : xml1 (c :: r) = (XQuestion, s, t) -> c = 63%Z.
Proof. intros H. destruct (Z.eq_dec c 63) as [| N]; [assumption|]. exfalso. cbn [xml1] in H. unfold within, refer in H. apply Z.eqb_neq in N. rewrite N in H. split_xml1 H. Qed.
Lemma xml1_less c r s t : xml1 (c :: r) = (XLeftAngle, s, t) -> t = r /\ prefixb (lit "?") r = false.
Proof.
  intros H. cbn [xml1] in H. unfold within, refer in H. destruct (prefixb (lit "?") r) eqn:P.
  - exfalso. split_xml1 H.
  - split; [|reflexivity]. split_xml1 H. now injection H.
Qed.
Lemma cut_sep cs ps : cut xml_piece cs ps -> sep (ps ++ [eof_piece]) /\ Forall (fun p => exists k, fst p = Some k) ps.
Proof.
  induction 1 as [| k s r ps N P C [IH1 IH2]]; [split; [split; exact I | constructor]|]. destruct (piece_xml1 _ _ _ P N) as (x & -> & X). split; [|constructor; [now exists x | assumption]].
  cbn [app sep]. split; [|assumption]. destruct C as [| k' s' r' ps' N' P' C'].
  - split; intros [_ H]; discriminate.
  - destruct (piece_xml1 _ _ _ P' N') as (x' & -> & X'). destruct s as [| c s]; [contradiction|]. destruct s' as [| c' s']; [contradiction|]. cbn [app] in *. unfold apart, is, kind. cbn [fst]. rewrite !Nat.eqb_eq. split; intros [-> ->].
    + apply xml1_ident in X, X'. destruct X as [_ X], X' as [X' _]. pose proof (drop_head xml_name_char (s ++ c' :: s' ++ r')) as D. rewrite <- X in D. apply startb in X'. assert (xml_name_char c' = true) by (apply nameb; now left). congruence.
    + apply xml1_less in X. apply xml1_question in X'. destruct X as [E P0]. rewrite <- E in P0. subst c'. discriminate.
Qed.
Lemma kinds_yields ps : Forall (fun p : piece => exists k, fst p = Some k) ps -> flat_map piece_yield ps = map yield ps.
Proof. induction 1 as [| p ps (k & E) _ IH]; [reflexivity|]. cbn [flat_map map]. rewrite IH. unfold piece_yield, yield, kind. now rewrite E. Qed.

(** ** The parser on a text *)
Lemma parse_text cs ps : Forall is_scalar cs -> (Z.of_nat (length (encode cs)) < 2 ^ 32)%Z -> cut xml_piece cs ps ->
  (exists kids, document ps kids /\ xml_parse (encode cs) = Some (Tree (gnode XRoot kids), [])) \/
  ((forall kids, ~ document ps kids) /\ exists off, xml_parse (encode cs) = Some (Failed, [(0, off)])).
Proof.
  intros F L C. destruct (xml_lex_cut cs F) as (ps' & C' & E). assert (ps' = ps) by (apply (cut_unique xml_piece cs); [exact xml_pieces_unique | assumption | assumption]). subst ps'. unfold xml_parse. rewrite E. destruct (cut_sep cs ps C) as [Se K].
  set (toks := spans 0 ps ++ _). assert (Hf : (Z.of_nat (toklen toks) < 2 ^ 32)%Z) by (apply (spans_fit cs); [now apply cut_text in C | assumption]).
  assert (Y : map tok_yield toks = map yield (ps ++ [eof_piece])). { unfold toks. rewrite !map_app, spans_yields, kinds_yields by assumption. f_equal. cbn. unfold tok_yield, yield. cbn. now rewrite Nat.sub_diag. }
  pose proof (whole toks Hf (length (encode cs)) _ Y Se) as W. destruct (p_document (S (length toks)) (S (length toks)) (ps ++ [eof_piece])) as [kids|] eqn:D.
  - left. exists kids. split; [|assumption]. apply document_eof. now apply p_document_sound in D.
  - right. split; [|assumption]. intros kids H. apply document_eof in H. rewrite (p_document_complete _ _ _ H) in D; [discriminate | |]; apply (f_equal (@length _)) in Y; rewrite !map_length in Y; lia.
Qed.

(** ** The builder *)
Section Builder.
  Variable source : str.
  Fixpoint bgo (l : list green) (off : nat) (name : str) (attrs : list xattr) (kids : list xvalue) : option (str * list xattr * list xvalue) :=
    match l with
    | [] => Some (name, attrs, kids)
    | c :: r =>
        match c with
        | GNode k n sub =>
            if (k =? XStartTag) || (k =? XSelfClosing) then
              match tag_parts source sub off name attrs with
              | None => None
              | Some (name', attrs') => bgo r (off + n) name' attrs' kids
              end
            else if k =? XElement then
              match build_element source c off with
              | None => None
              | Some v => bgo r (off + n) name attrs (kids ++ [v])
              end
            else bgo r (off + n) name attrs kids
        | GLeaf k n _ =>
            let t := flat_text_in source off (off + n) in
            bgo r (off + n) name attrs
              (if (k =? XText) && negb (forallb char_is_whitespace (chars t)) then kids ++ [VText t] else kids)
        end
    end.
  Lemma build_step k len ch off : build_element source (GNode k len ch) off = match bgo ch off [] [] [] with None => None | Some (name, attrs, kids) => Some (VElement name attrs kids (off, off + len)) end.
  Proof. reflexivity. Qed.
End Builder.

Section Shapes.
  Variable source : str.

  Definition gives_bare (t : green) : Prop := (exists len ch, t = GNode XElement len ch) /\ forall off, exists v, build_element source t off = Some v /\ bare v.
  Lemma bgo_bare ts rest : Forall gives_bare ts -> forall off name attrs acc, Forall bare acc ->
    exists off' acc', bgo source (ts ++ rest) off name attrs acc = bgo source rest off' name attrs acc' /\ Forall bare acc'.
  Proof.
    induction 1 as [| t ts ((len & ch & ->) & H) _ IH]; intros off name attrs acc Ha; [now exists off, acc|]. cbn [app bgo Nat.eqb XElement XStartTag XSelfClosing orb]. destruct (H off) as (v & -> & Bv). apply IH. apply Forall_app. split; [assumption | now constructor].
  Qed.
  Lemma piece_leaf p k : pkind p k -> pleaf p = GLeaf k (length (encode (snd p))) None.
  Proof. unfold pleaf, pkind. now intros ->. Qed.
  Lemma element_bare : (forall e t, element e t -> gives_bare t) /\ (forall b ts, content b ts -> Forall gives_bare ts).
  Proof.
    apply element_content_ind; [| |constructor | now constructor | easy].
    - intros a n z K1 K2 K3. split; [do 2 eexists; reflexivity|]. intros off. unfold gnode. rewrite build_step, (piece_leaf a _ K1), (piece_leaf n _ K2), (piece_leaf z _ K3). cbn. eexists. split; [reflexivity|]. repeat constructor.
    - intros a n z body kids a' n' z' K1 K2 K3 _ IH K4 K5 K6. split; [do 2 eexists; reflexivity|]. intros off. unfold gnode at 1. rewrite build_step, (piece_leaf a _ K1), (piece_leaf n _ K2), (piece_leaf z _ K3). unfold gnode at 1. cbn [bgo Nat.eqb XStartTag XSelfClosing orb tag_parts XLeftAngle XIdentifier XRightAngle].
      match goal with |- context [bgo source (kids ++ ?rest) ?o ?nm ?ats ?acc] => destruct (bgo_bare kids rest IH o nm ats acc (Forall_nil _)) as (off' & acc' & -> & Ba) end.
      cbn. eexists. split; [reflexivity|]. now constructor.
  Qed.
  Lemma document_bare qs ts : document qs ts -> Forall gives_bare ts.
  Proof. induction 1 as [| e t r ts El _ IH | p r ts _ _ IH]; [constructor | | assumption]. constructor; [now apply (proj1 element_bare e) | assumption]. Qed.
  Lemma root_bare ts : Forall gives_bare ts -> forall off, exists vs, root_elements source ts off = Some vs /\ Forall bare vs /\ length vs = length ts.
  Proof.
    induction 1 as [| t ts ((len & ch & ->) & H) _ IH]; intros off; [exists []; repeat constructor|]. cbn [root_elements Nat.eqb XElement]. destruct (H off) as (v & -> & Bv). destruct (IH (off + len)) as (vs & -> & Bs & L). exists (v :: vs). split; [reflexivity|]. split; [now constructor | cbn; now rewrite L].
  Qed.
End Shapes.

(** ** Node kinds *)
Definition tag_kinds := [XElement; XStartTag; XEndTag; XSelfClosing].
Lemma element_kinds : (forall e t, element e t -> Forall (fun k => In k tag_kinds) (node_kinds t)) /\ (forall b ts, content b ts -> Forall (fun k => In k tag_kinds) (concat (map node_kinds ts))).
Proof.
  apply element_content_ind; [| | constructor | | easy].
  - intros. unfold pleaf, leaf, gnode. cbn. repeat constructor; cbn; tauto.
  - intros a n z body kids a' n' z' _ _ _ _ IH _ _ _. unfold pleaf, leaf, gnode. cbn [node_kinds map concat app]. rewrite map_app, concat_app. cbn. constructor; [cbn; tauto|]. constructor; [cbn; tauto|]. apply Forall_app. split; [assumption|]. repeat constructor; cbn; tauto.
  - intros e t r ts _ IH1 _ IH2. cbn. apply Forall_app. now split.
Qed.
Lemma document_kinds qs ts : document qs ts -> Forall (fun k => In k tag_kinds) (concat (map node_kinds ts)).
Proof. induction 1 as [| e t r ts El _ IH | p r ts _ _ IH]; [constructor | | assumption]. cbn. apply Forall_app. split; [now apply (proj1 element_kinds e) | assumption]. Qed.

(** ** Texts of elements only *)
Section TagsInd.
  Variable P : tags -> Prop.
  Hypothesis Hempty : forall n, P (Empty n).
  Hypothesis Hfull : forall n ks m, Forall P ks -> P (Full n ks m).
  Fixpoint tags_ind' (t : tags) : P t :=
    match t with
    | Empty n => Hempty n
    | Full n ks m => Hfull n ks m ((fix all (l : list tags) : Forall P l := match l with [] => Forall_nil P | k :: r => Forall_cons k (tags_ind' k) (all r) end) ks)
    end.
End TagsInd.

Lemma named_full n ks m : named (Full n ks m) -> xml_name n /\ xml_name m /\ Forall named ks.
Proof. inversion 1. now repeat split. Qed.
Lemma named_empty n : named (Empty n) -> xml_name n.
Proof. now inversion 1. Qed.
Lemma name_char_ascii c : name_char c -> PyProofs.ascii c.
Proof. unfold name_char, name_start, letter, digit, PyProofs.ascii. lia. Qed.
Lemma name_ascii n : xml_name n -> Forall PyProofs.ascii n.
Proof. intros (c & s & -> & Hc & Hs). constructor; [apply name_char_ascii; now left|]. eapply Forall_impl; [|exact Hs]. exact name_char_ascii. Qed.
Ltac lits := repeat (apply Forall_cons; [unfold PyProofs.ascii; cbn; lia|]); apply Forall_nil.
Lemma written_ascii t : named t -> Forall PyProofs.ascii (written t).
Proof.
  induction t as [n | n ks m IH] using tags_ind'; intros H.
  - apply named_empty in H. cbn [written]. apply Forall_app. split; [lits|]. apply Forall_app. split; [now apply name_ascii | lits].
  - apply named_full in H. destruct H as (Hn & Hm & Hk). cbn [written]. apply Forall_app. split; [lits|]. apply Forall_app. split; [now apply name_ascii|]. apply Forall_app. split; [lits|]. apply Forall_app. split; [|apply Forall_app; split; [lits|]; apply Forall_app; split; [now apply name_ascii | lits]].
    induction Hk as [| k ks Hk _ IHk]; [constructor|]. inversion IH as [| ? ? I1 I2]; subst. cbn. apply Forall_app. split; [now apply I1 | now apply IHk].
Qed.
Lemma ascii_same s : Forall PyProofs.ascii s -> encode s = s /\ Forall is_scalar s.
Proof. exact (ascii_encode s). Qed.

(** The pieces are those of the lexer *)
Definition starts_tag (r : list Z) : Prop := r = [] \/ exists x, r = 60%Z :: x.
Lemma cut_less n r ps : xml_name n -> cut xml_piece (n ++ r) ps -> cut xml_piece (lit "<" ++ n ++ r) ((Some XLeftAngle, lit "<") :: ps).
Proof.
  intros (c & s & -> & Hc & _) C. apply CutPiece; [discriminate | | assumption]. destruct (name_start_cases c Hc) as (_ & N1 & N2 & _). assert (N3 : c <> 33%Z /\ c <> 63%Z) by (unfold name_start, letter in Hc; lia). cbn [app] in *. apply PLess.
  - intros x E. injection E as E _. now apply N2.
  - intros o e k k' x I E. cbn in I. decompose [or] I; match goal with H : (_, _, _, _) = _ |- _ => injection H as <- _ _ _ | H : False |- _ => destruct H end; cbn [app lit] in E; try discriminate E; injection E as E _; now apply N3.
  - intros w x (v & -> & _) E. injection E as E _. now apply N3.
Qed.
Lemma cut_name n r ps : xml_name n -> (forall c, hd_error r = Some c -> ~ name_char c) -> cut xml_piece r ps -> cut xml_piece (n ++ r) ((Some XIdentifier, n) :: ps).
Proof. intros (c & s & -> & Hc & Hs) E C. apply CutPiece; [discriminate | | assumption]. apply PName; [assumption|]. now split. Qed.
Lemma cut_mark s k r ps : In (s, k) punctuation -> s <> [] -> cut xml_piece r ps -> cut xml_piece (s ++ r) ((Some k, s) :: ps).
Proof. intros I N C. apply CutPiece; [assumption | now apply PPunct | assumption]. Qed.
Lemma ends_name d r : ~ name_char d -> forall c, hd_error (d :: r) = Some c -> ~ name_char c.
Proof. intros H c E. injection E as <-. assumption. Qed.
Lemma not_name : ~ name_char 47%Z /\ ~ name_char 62%Z.
Proof. unfold name_char, name_start, letter, digit. lia. Qed.
Lemma cut_written t : named t -> forall r ps, cut xml_piece r ps -> cut xml_piece (written t ++ r) (pieces_of t ++ ps).
Proof.
  induction t as [n | n ks m IH] using tags_ind'; intros H r ps C.
  - apply named_empty in H. cbn [written pieces_of app]. rewrite <- !app_assoc. apply cut_less; [assumption|]. apply cut_name; [assumption | apply ends_name; apply not_name|]. apply cut_mark; [right; now left | discriminate | assumption].
  - apply named_full in H. destruct H as (Hn & Hm & Hk). cbn [written pieces_of app]. rewrite <- !app_assoc. apply cut_less; [assumption|]. apply cut_name; [assumption | apply ends_name; apply not_name|]. apply cut_mark; [do 2 right; now left | discriminate|].
    assert (C' : cut xml_piece (lit "</" ++ m ++ lit ">" ++ r) ([(Some XLeftAngleSlash, lit "</"); (Some XIdentifier, m); (Some XRightAngle, lit ">")] ++ ps)).
    { apply cut_mark; [now left | discriminate|]. apply cut_name; [assumption | apply ends_name; apply not_name|]. apply cut_mark; [do 2 right; now left | discriminate | assumption]. }
    assert (Go : forall r' ps', cut xml_piece r' ps' -> cut xml_piece (concat (map written ks) ++ r') (concat (map pieces_of ks) ++ ps')).
    { clear - IH Hk. intros r' ps' C'. induction Hk as [| k ks Hk _ IHk]; [exact C'|]. inversion IH as [| ? ? I1 I2]; subst. cbn [map concat]. rewrite <- !app_assoc. apply I1; [assumption | now apply IHk]. }
    apply Go. exact C'.
Qed.
Lemma cut_all ts : Forall named ts -> cut xml_piece (concat (map written ts)) (concat (map pieces_of ts)).
Proof. induction 1 as [| t ts Ht _ IH]; [constructor|]. cbn. now apply cut_written. Qed.

(** … and those of the grammar *)
Lemma element_tags t : named t -> element (pieces_of t) (tree_of t).
Proof.
  induction t as [n | n ks m IH] using tags_ind'; intros H; cbn [pieces_of tree_of].
  - now apply (ElEmpty (Some XLeftAngle, lit "<") (Some XIdentifier, n) (Some XSlashRightAngle, lit "/>")).
  - apply named_full in H. destruct H as (Hn & Hm & Hk).
    apply (ElFull (Some XLeftAngle, lit "<") (Some XIdentifier, n) (Some XRightAngle, lit ">") (concat (map pieces_of ks)) (map tree_of ks) (Some XLeftAngleSlash, lit "</") (Some XIdentifier, m) (Some XRightAngle, lit ">")); try reflexivity.
    clear Hn Hm. induction Hk as [| k ks Hk _ IHk]; [constructor|]. inversion IH as [| ? ? I1 I2]; subst. cbn. constructor; [now apply I1 | now apply IHk].
Qed.
Lemma document_tags ts : Forall named ts -> document (concat (map pieces_of ts)) (map tree_of ts).
Proof. induction 1 as [| t ts Ht _ IH]; [constructor|]. cbn. constructor; [now apply element_tags | assumption]. Qed.

(** ** Their values *)
Lemma name_width n : xml_name n -> length (encode n) = length n.
Proof. intros H. now rewrite (proj1 (ascii_same n (name_ascii n H))). Qed.
Lemma tree_width t : named t -> width (tree_of t) = length (written t).
Proof.
  induction t as [n | n ks m IH] using tags_ind'; intros H.
  - apply named_empty in H. cbn [tree_of written gnode width map list_sum fold_right leaf]. rewrite !app_length, (name_width n H). change (length (encode (lit "<"))) with 1. change (length (encode (lit "/>"))) with 2. change (length (lit "<")) with 1. change (length (lit "/>")) with 2. lia.
  - apply named_full in H. destruct H as (Hn & Hm & Hk). cbn [tree_of written gnode width map list_sum fold_right leaf]. rewrite map_app, fold_right_app, (name_width n Hn). cbn [map gnode width fold_right leaf list_sum]. rewrite (name_width m Hm). rewrite !app_length.
    assert (W : forall z, fold_right Init.Nat.add z (map width (map tree_of ks)) = length (concat (map written ks)) + z).
    { clear Hn Hm. induction Hk as [| k ks Hk _ IHk]; intros z; [reflexivity|]. inversion IH as [| ? ? I1 I2]; subst. cbn [map fold_right concat]. rewrite (IHk I2), app_length, (I1 Hk). lia. }
    rewrite W. change (length (encode (lit "<"))) with 1. change (length (encode (lit ">"))) with 1. change (length (encode (lit "</"))) with 2. change (length (lit "<")) with 1. change (length (lit ">")) with 1. change (length (lit "</")) with 2. lia.
Qed.
Definition values_at := fix all (off : nat) (ks : list tags) : list xvalue := match ks with [] => [] | k :: r => value_at off k :: all (off + length (written k)) r end.

Section Values.
  Lemma here pre s post : Forall PyProofs.ascii (pre ++ s ++ post) -> flat_text_in (pre ++ s ++ post) (length pre) (length pre + length s) = s.
  Proof.
    intros A. destruct (ascii_same _ A) as [E F]. destruct (text_here pre s post F) as [H _]. pose proof A as A'. apply Forall_app in A' as [A1 A2]. apply Forall_app in A2 as [A2 A3]. rewrite E, (proj1 (ascii_same _ A1)), (proj1 (ascii_same _ A2)) in H. exact H.
  Qed.
  Definition gives (source : str) (off : nat) (t : tags) : Prop := build_element source (tree_of t) off = Some (value_at off t).
  Lemma build_tags t : named t -> forall pre post, Forall PyProofs.ascii (pre ++ written t ++ post) -> gives (pre ++ written t ++ post) (length pre) t.
  Proof.
    induction t as [n | n ks m IH] using tags_ind'; intros H pre post A.
    - unfold gives. pose proof (tree_width _ H) as W. cbn [tree_of] in W |- *. unfold gnode at 1 in W. unfold gnode at 1. rewrite build_step. cbn [width] in W. rewrite W. reflexivity.
    - pose proof (tree_width _ H) as W. pose proof H as H'. apply named_full in H'. destruct H' as (Hn & Hm & Hk). unfold gives. cbn [tree_of] in W |- *. unfold gnode at 1 in W. unfold gnode at 1. rewrite build_step. cbn [width] in W. rewrite W.
      set (src := pre ++ written (Full n ks m) ++ post) in *.
      assert (Nm : flat_text_in src (length pre + 1) (length pre + 1 + length n) = n).
      { assert (E : src = (pre ++ lit "<") ++ n ++ (lit ">" ++ concat (map written ks) ++ lit "</" ++ m ++ lit ">" ++ post)) by (unfold src; cbn [written]; rewrite <- !app_assoc; reflexivity). pose proof (here (pre ++ lit "<") n (lit ">" ++ concat (map written ks) ++ lit "</" ++ m ++ lit ">" ++ post)) as X. rewrite <- E in X. rewrite app_length in X. now apply X. }
      unfold gnode at 1. cbn [bgo Nat.eqb XStartTag XSelfClosing orb]. cbn [tag_parts leaf Nat.eqb XLeftAngle XIdentifier XRightAngle]. rewrite (name_width n Hn). change (length (encode (lit "<"))) with 1. rewrite Nm.
      assert (Kids : forall ks0 pre0 acc, src = pre0 ++ concat (map written ks0) ++ lit "</" ++ m ++ lit ">" ++ post -> Forall named ks0 -> Forall (fun t => named t -> forall pre post, Forall PyProofs.ascii (pre ++ written t ++ post) -> gives (pre ++ written t ++ post) (length pre) t) ks0 ->
        bgo src (map tree_of ks0 ++ [gnode XEndTag [leaf XLeftAngleSlash (lit "</"); leaf XIdentifier m; leaf XRightAngle (lit ">")]]) (length pre0) n [] acc = Some (n, [], acc ++ values_at (length pre0) ks0)).
      { induction ks0 as [| k ks0 IHk]; intros pre0 acc E0 N0 I0; [cbn; now rewrite app_nil_r|]. inversion N0 as [| ? ? N1 N2]; inversion I0 as [| ? ? I1 I2]; subst. cbn [map concat] in E0. rewrite <- app_assoc in E0.
        assert (Hd : exists ch, tree_of k = GNode XElement (list_sum (map width ch)) ch) by (destruct k; eexists; reflexivity). destruct Hd as (ch & Ek). cbn [map app]. rewrite Ek. cbn [bgo Nat.eqb XElement XStartTag XSelfClosing orb]. rewrite <- Ek.
        assert (G : gives src (length pre0) k). { rewrite E0. apply I1; [assumption|]. now rewrite <- E0. }
        unfold gives in G. rewrite G. pose proof (tree_width k N1) as Wk. rewrite Ek in Wk. cbn [width] in Wk. rewrite Wk. rewrite <- app_length. rewrite IHk; [|now rewrite <- app_assoc | assumption | assumption]. rewrite app_length, <- app_assoc. reflexivity. }
      assert (E1 : src = (pre ++ lit "<" ++ n ++ lit ">") ++ concat (map written ks) ++ lit "</" ++ m ++ lit ">" ++ post) by (unfold src; cbn [written]; rewrite <- !app_assoc; reflexivity).
      specialize (Kids ks (pre ++ lit "<" ++ n ++ lit ">") [] E1 Hk IH). rewrite app_length in Kids. cbn [app] in Kids.
      assert (Wt : list_sum (map width [leaf XLeftAngle (lit "<"); leaf XIdentifier n; leaf XRightAngle (lit ">")]) = length (lit "<" ++ n ++ lit ">")). { cbn [map width leaf list_sum fold_right]. rewrite (name_width n Hn), !app_length. change (length (encode (lit "<"))) with 1. change (length (encode (lit ">"))) with 1. change (length (lit "<")) with 1. change (length (lit ">")) with 1. lia. }
      rewrite Wt, Kids. reflexivity.
  Qed.
End Values.
