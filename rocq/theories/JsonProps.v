(** Properties of the JSON lexer and parser. *)
From Verif Require Import Base Utf8 Utf8Facts EditModel LexModel LexSpec CursorModel CursorSpec CursorProofs TreeModel TreeSpec TreeProofs ParserModel ParserSpec ParserProofs.
From Verif Require Import JsonSpec JsonModel JsonLangSpec JsonLexProofs JsonParseProofs JsonTextProofs JsonDocProofs.

(** ** C65: the tokens of a text *)
(** The tokens are those of the pieces of the text, each a lexeme of its kind; what has no token is a
    number without digits, a letter or a slash.  The source may be read in chunks. *)
Theorem json_lexes_pieces_partial alpha alnum src text cfg cs : serves src text -> text = encode cs -> Forall is_scalar cs ->
  exists ps, json_lex alpha alnum src cfg = Some (spans 0 ps ++ [eof_at (length text)]) /\ text_of_pieces ps = cs /\
    Forall (fun p => snd p <> [] /\ match fst p with Some k => lexeme alpha alnum cfg k (snd p) | None => stray cfg (snd p) end) ps.
Proof.
  intros Hs E F. destruct (json_lex_pieces alpha alnum src text cfg cs Hs E F) as (ps & P & T & El). exists ps. split; [assumption|]. split; [assumption|]. exact (pieces_sound _ _ _ _ _ P).
Qed.
Print Assumptions json_lexes_pieces_partial.

Theorem json_tokens_in_order alpha alnum src text cfg : serves src text -> valid text ->
  exists toks, json_lex alpha alnum src cfg = Some toks /\ in_order 0 toks (length text).
Proof.
  intros Hs (cs & F & E). destruct (json_lex_pieces alpha alnum src text cfg cs Hs E F) as (ps & P & T & El). eexists. split; [exact El|].
  apply (order_app _ 0 _ (length text)); [|cbn; lia]. rewrite E, <- T. apply spans_order.
Qed.
Print Assumptions json_tokens_in_order.

(** Where nothing is left out the tokens tile the text. *)
Theorem json_tiles_unless_stray_partial alpha alnum src text cfg cs ps : serves src text -> text = encode cs -> Forall is_scalar cs ->
  json_lex alpha alnum src cfg = Some (spans 0 ps ++ [eof_at (length text)]) -> text_of_pieces ps = cs -> left_out ps = [] ->
  tiles tok_span 0 (spans 0 ps ++ [eof_at (length text)]) (length text).
Proof.
  intros Hs E F El T L. assert (App : forall l a b c, tiles tok_span a l b -> tiles tok_span b [eof_at c] c -> tiles tok_span a (l ++ [eof_at c]) c) by (induction 1; cbn [app]; [auto | intros; now apply TCons; auto]).
  apply (App _ _ (length text)); [|apply TCons; [reflexivity | cbn; lia | constructor]]. rewrite E, <- T. apply (spans_tile ps L 0).
Qed.
Print Assumptions json_tiles_unless_stray_partial.

(** The bytes of a sign or a letter on its own are in no token. *)
Theorem json_lexer_tiles_refuted : exists text toks, (forall alpha alnum, json_lex alpha alnum (flat_source text) standard = Some toks) /\
  ~ tiles tok_span 0 toks (length text).
Proof.
  exists (lit "[-]"), [Token KLBracket 0 1; Token KRBracket 2 3; Token KEof 3 3]. split; [intros; vm_compute; reflexivity|]. intros H. inversion H as [| a x l e H1 H2 H3]; subst. inversion H3 as [| a2 x2 l2 e2 H4 H5 H6]; subst. discriminate.
Qed.
Print Assumptions json_lexer_tiles_refuted.

(** ** C66: the tree of a text *)
(** Parsing always ends with a tree; its leaves are consecutive tokens, after the trivia at the start. *)
Theorem json_tree_partial alpha alnum cfg cs : Forall is_scalar cs -> (Z.of_nat (length (encode cs)) < 2 ^ 32)%Z ->
  exists toks root errs lead used left, json_lex alpha alnum (flat_source (encode cs)) cfg = Some toks /\ json_parse alpha alnum cfg (encode cs) None = Some (root, errs) /\
    toks = lead ++ used ++ left /\ yield root = map tok_yield used /\ built root /\ (exists ch, root = GNode KRoot (width root) ch) /\
    Forall (fun t => ignored (tk_kind t) = true) lead /\ match left with [] => True | t :: _ => ignored (tk_kind t) = false end.
Proof.
  intros F L. destruct (json_parse_spec alpha alnum cfg cs F L) as (ps & root & errs & lead & used & left & P & T & El & Ep & Et & Hl & Hf & Hu & B & Y & R & _). exists (spans 0 ps ++ [eof_at (length (encode cs))]), root, errs, lead, used, left.
  split; [assumption|]. split; [assumption|]. split; [assumption|]. split; [assumption|]. split; [assumption|]. split; [assumption|]. split; assumption.
Qed.
Print Assumptions json_tree_partial.

(** The tree of a JSON text covers the text without the whitespace at its start. *)
Theorem json_root_width_partial alpha alnum cfg cs v : Forall is_scalar cs -> (Z.of_nat (length (encode cs)) < 2 ^ 32)%Z -> jtext cs v ->
  exists root w rest, json_parse alpha alnum cfg (encode cs) None = Some (root, []) /\ cs = w ++ rest /\ ws w /\ (exists c r, rest = c :: r /\ ~ is_ws c) /\
    width root = length (encode rest) /\ built root.
Proof.
  intros F L J. destruct (valid_parse alpha alnum cfg cs v F L J) as (root & ps & w & rest & Ep & El & T & W & E & Hw & Hr & Hd & B & R & _). exists root, w, rest.
  split; [assumption|]. split; [assumption|]. split; [assumption|]. split; [assumption|]. now split.
Qed.
Print Assumptions json_root_width_partial.

Lemma scalars_by cs : forallb is_scalarb cs = true -> Forall is_scalar cs.
Proof. intros H. apply Forall_forall. intros c Hc. rewrite forallb_forall in H. apply is_scalarb_spec. now apply H. Qed.

(** Whitespace at the start of a valid text is outside the tree, and so is what follows the value. *)
Theorem json_root_refuted :
  (exists cs v root, jtext cs v /\ Forall is_scalar cs /\ (forall alpha alnum, json_parse alpha alnum standard (encode cs) None = Some (root, [])) /\ width root < length (encode cs)) /\
  exists text root, (forall alpha alnum, json_parse alpha alnum standard text None = Some (root, [])) /\ width root < length text.
Proof.
  split.
  - exists (lit " 1"), (JNumber (lit "1")), (GNode KRoot 1 [GNode KNumber 1 [GLeaf KNumberLit 1 None]]). split; [|split; [apply scalars_by; reflexivity|split; [intros; vm_compute; reflexivity | apply Nat.ltb_lt; vm_compute; reflexivity]]].
    apply (TText [32%Z] (lit "1") [] (JNumber (lit "1"))); [constructor; [now left | constructor] | apply VNumber; apply (JNum [] [49%Z] [] []); [now left | apply JIPos; [lia | constructor] | constructor | constructor] | constructor].
  - exists (lit "1 2"), (GNode KRoot 2 [GNode KNumber 2 [GLeaf KNumberLit 1 None; GLeaf KWhitespace 1 None]]). split; [intros; vm_compute; reflexivity | apply Nat.ltb_lt; vm_compute; reflexivity].
Qed.
Print Assumptions json_root_refuted.

(** ** C67: diagnostics *)
(** A JSON text is parsed without a diagnostic, in every configuration, and its tokens tile it. *)
Theorem json_accepts_valid alpha alnum cfg cs v : Forall is_scalar cs -> (Z.of_nat (length (encode cs)) < 2 ^ 32)%Z -> jtext cs v ->
  exists root toks, json_parse alpha alnum cfg (encode cs) None = Some (root, []) /\
    json_lex alpha alnum (flat_source (encode cs)) cfg = Some toks /\ tiles tok_span 0 toks (length (encode cs)) /\
    kinds toks = leaf_kinds (yield root) ++ [KEof].
Proof.
  intros F L J. destruct (valid_parse alpha alnum cfg cs v F L J) as (root & ps & w & rest & Ep & El & T & W & _ & _ & _ & _ & _ & _ & lead & Y & I). exists root, (spans 0 ps ++ [eof_at (length (encode cs))]). split; [assumption|]. split; [assumption|].
  assert (Lo : left_out ps = []) by (clear - W; induction W as [| [k s] r H _ IH]; [reflexivity|]; destruct k; [exact IH | destruct H]). split.
  - apply (json_tiles_unless_stray_partial alpha alnum (flat_source (encode cs)) (encode cs) cfg cs ps); try assumption; [apply flat_serves; now exists cs | reflexivity].
  - rewrite kinds_app. change (kinds [eof_at (length (encode cs))]) with [KEof]. f_equal. rewrite <- leaf_kinds_toks, Y. unfold leaf_kinds. rewrite map_app, filter_app. clear - I. induction I as [| y r H _ IH]; [reflexivity|]. cbn [map app filter]. rewrite H. exact IH.
Qed.
Print Assumptions json_accepts_valid.

(** No diagnostics are reported exactly when some first tokens are those of a value. *)
Theorem json_no_diagnostics_iff alpha alnum cfg cs : Forall is_scalar cs -> (Z.of_nat (length (encode cs)) < 2 ^ 32)%Z ->
  exists toks root errs, json_lex alpha alnum (flat_source (encode cs)) cfg = Some toks /\ json_parse alpha alnum cfg (encode cs) None = Some (root, errs) /\
    (errs = [] <-> exists v r, kinds toks = v ++ r /\ tvalue cfg v).
Proof.
  intros F L. destruct (json_parse_spec alpha alnum cfg cs F L) as (ps & root & errs & lead & used & left & P & T & El & Ep & Et & Hl & Hf & Hu & B & Y & R & S & A). exists (spans 0 ps ++ [eof_at (length (encode cs))]), root, errs. split; [assumption|]. split; [assumption|]. split.
  - intros Ee. exists (kinds used), (kinds left). split; [|now apply S]. rewrite Et, !kinds_app, (kinds_trivia lead Hl). reflexivity.
  - intros (v & r & E & V). now apply (A v r).
Qed.
Print Assumptions json_no_diagnostics_iff.

(** In the standard configuration a text is JSON exactly when no diagnostics are reported, the tree has
    all tokens but trivia, and every token is a well formed JSON lexeme. *)
Theorem json_valid_iff alpha alnum cs : Forall is_scalar cs -> (Z.of_nat (length (encode cs)) < 2 ^ 32)%Z ->
  (exists v, jtext cs v) <->
  exists root ps, json_parse alpha alnum standard (encode cs) None = Some (root, []) /\
    json_lex alpha alnum (flat_source (encode cs)) standard = Some (spans 0 ps ++ [eof_at (length (encode cs))]) /\
    text_of_pieces ps = cs /\ Forall well_formed ps /\ kinds (spans 0 ps) = leaf_kinds (yield root).
Proof.
  intros F L. split.
  - intros (v & J). destruct (valid_parse alpha alnum standard cs v F L J) as (root & ps & w & rest & Ep & El & T & W & _ & _ & _ & _ & _ & _ & lead & Y & I). exists root, ps. split; [assumption|]. split; [assumption|]. split; [assumption|]. split; [assumption|].
    rewrite <- leaf_kinds_toks, Y. unfold leaf_kinds. rewrite map_app, filter_app. clear - I. induction I as [| y r H _ IH]; [reflexivity|]. cbn [map app filter]. rewrite H. exact IH.
  - intros (root & ps & Ep & El & T & W & K). exact (parse_valid alpha alnum cs root ps F L Ep El T W K).
Qed.
Print Assumptions json_valid_iff.

(** Texts that are not JSON and for which no diagnostics are reported. *)
Definition accepted (text : list Z) : Prop := forall alpha alnum, exists root, json_parse alpha alnum standard (encode text) None = Some (root, []).

Lemma not_json cs qs root : json_parse (fun _ => false) (fun _ => false) standard (encode cs) None = Some (root, []) ->
  json_lex (fun _ => false) (fun _ => false) (flat_source (encode cs)) standard = Some (spans 0 qs ++ [eof_at (length (encode cs))]) ->
  forallb is_scalarb cs = true -> (length (encode cs) <=? 100) = true -> forallb (fun p : piece => negb (length (snd p) =? 0)) qs = true -> text_of_pieces qs = cs ->
  ~ Forall well_formed qs \/ kinds (spans 0 qs) <> leaf_kinds (yield root) -> ~ exists v, jtext cs v.
Proof.
  intros Ep El Fb Lb Nb T H J. assert (F : Forall is_scalar cs) by (now apply scalars_by).
  apply Nat.leb_le in Lb. apply (json_valid_iff (fun _ => false) (fun _ => false) cs F ltac:(lia)) in J as (root' & ps & Ep' & El' & T' & W & K).
  rewrite Ep in Ep'. injection Ep' as <-. rewrite El in El'. injection El' as E. apply app_inj_tail in E as [E _].
  assert (Lo : left_out ps = []) by (clear - W; induction W as [| [k s] r Hp _ IH]; [reflexivity|]; destruct k; [exact IH | destruct Hp]).
  assert (qs = ps). { apply (spans_inj (fun _ => false) (fun _ => false) ps 0 qs); [|assumption | congruence | assumption]. apply Forall_forall. intros p Hp. rewrite forallb_forall in Nb. specialize (Nb p Hp). intros C. now rewrite C in Nb. }
  subst ps. tauto.
Qed.

Lemma number_ends s : jnumber s -> exists r d, s = r ++ [d] /\ is_digit d.
Proof.
  assert (D : forall r d, is_digit d -> Forall is_digit r -> exists r' d', d :: r = r' ++ [d'] /\ is_digit d').
  { intros r d Hd Hr. destruct r as [| x r] using rev_ind; [now exists [], d|]. apply Forall_app in Hr as [_ Hr]. inversion Hr; subst. now exists (d :: r), x. }
  intros [m i f e Hm Hi Hf He]. destruct He as [| x sg d r Hx Hs Hd Hr].
  - destruct Hf as [| d r Hd Hr].
    + rewrite !app_nil_r. destruct Hi as [| c r Hc Hr]; [exists m, 48%Z; split; [reflexivity | unfold is_digit; lia]|]. destruct (D r c) as (r' & d' & E & Hd'); [unfold is_digit; lia | assumption|]. exists (m ++ r'), d'. now rewrite E, app_assoc.
    + rewrite app_nil_r. destruct (D r d Hd Hr) as (r' & d' & E & Hd'). exists (m ++ i ++ 46%Z :: r'), d'. rewrite E, <- !app_assoc. now split.
  - destruct (D r d Hd Hr) as (r' & d' & E & Hd'). exists (m ++ i ++ f ++ x :: sg ++ r'), d'. rewrite E. split; [|assumption]. rewrite <- !app_assoc. cbn [app]. now rewrite <- !app_assoc.
Qed.

Lemma number_zero c r : jnumber (48%Z :: c :: r) -> ~ is_digit c.
Proof.
  intros H. remember (48%Z :: c :: r) as s eqn:E. destruct H as [m i f e Hm Hi Hf He]. unfold is_digit. destruct Hm as [-> | ->]; [|discriminate]. destruct Hi as [| x t Hx Ht]; [|injection E as -> _; lia].
  destruct Hf as [| d t Hd Ht]; [|injection E as <- _; lia]. destruct He as [| x sg d t Hx Hs Hd Ht]; [discriminate|]. injection E as <- _. lia.
Qed.

Theorem json_diagnostics_refuted : Forall (fun cs => accepted cs /\ Forall is_scalar cs /\ ~ exists v, jtext cs v)
  [lit "1 2"; lit "[-]"; lit "01"; lit "1."; lit "1e"; lit """\q"""].
Proof.
  assert (Num : forall s l, Forall well_formed ((Some KNumberLit, s) :: l) -> jnumber s) by (intros s l H; inversion H as [| ? ? W _]; subst; now apply W).
  apply Forall_cons; [|apply Forall_cons; [|apply Forall_cons; [|apply Forall_cons; [|apply Forall_cons; [|apply Forall_cons; [|constructor]]]]]]; (split; [intros alpha alnum; eexists; vm_compute; reflexivity | split; [apply scalars_by; vm_compute; reflexivity|]]).
  - eapply (not_json _ [(Some KNumberLit, lit "1"); (Some KWhitespace, lit " "); (Some KNumberLit, lit "2")]); [vm_compute; reflexivity .. |]. right. vm_compute. discriminate.
  - eapply (not_json _ [(Some KLBracket, lit "["); (None, lit "-"); (Some KRBracket, lit "]")]); [vm_compute; reflexivity .. |]. left. intros H. inversion H as [| ? ? _ H2]; subst. inversion H2 as [| ? ? H3 _]; subst. exact H3.
  - eapply (not_json _ [(Some KNumberLit, lit "01")]); [vm_compute; reflexivity .. |]. left. intros H. apply Num in H. apply (number_zero 49%Z [] H). unfold is_digit. lia.
  - eapply (not_json _ [(Some KNumberLit, lit "1.")]); [vm_compute; reflexivity .. |]. left. intros H. apply Num, number_ends in H as (r & d & E & Hd). change (lit "1.") with ([49%Z] ++ [46%Z]) in E. apply app_inj_tail in E as [_ <-]. unfold is_digit in Hd. lia.
  - eapply (not_json _ [(Some KNumberLit, lit "1e")]); [vm_compute; reflexivity .. |]. left. intros H. apply Num, number_ends in H as (r & d & E & Hd). change (lit "1e") with ([49%Z] ++ [101%Z]) in E. apply app_inj_tail in E as [_ <-]. unfold is_digit in Hd. lia.
  - eapply (not_json _ [(Some KStringLit, lit """\q""")]); [vm_compute; reflexivity .. |]. left. intros H. inversion H as [| ? ? W _]; subst. destruct W as (_ & _ & W). destruct (W eq_refl) as (d & b & E & J). cbn in E. injection E as E.
    change [92%Z; 113%Z; 34%Z] with ([92%Z; 113%Z] ++ [34%Z]) in E. apply app_inj_tail in E as [<- _]. inversion J as [| ? ? ? ? ? ? Nb | e v r d0 Hi | |]; subst; [lia|]. cbn in Hi. repeat (destruct Hi as [Hi | Hi]; [discriminate Hi|]). exact Hi.
Qed.
Print Assumptions json_diagnostics_refuted.

(** ** C111: parsing again *)
(** Parsing a text a second time, with the tree of the first time and without edits, loses diagnostics. *)
Theorem json_reparse_refuted : exists text root errs, errs <> [] /\ forall alpha alnum,
  json_parse alpha alnum standard text None = Some (root, errs) /\ json_parse alpha alnum standard text (Some (root, [])) = Some (root, []).
Proof.
  exists (lit "[[1 2],3]"), (GNode KRoot 4 [GNode KArray 4 [GLeaf KLBracket 1 None; GNode KArray 3 [GLeaf KLBracket 1 None; GNode KNumber 2 [GLeaf KNumberLit 1 None; GLeaf KWhitespace 1 None]]]]), [(0, 4); (0, 4)].
  split; [discriminate|]. intros alpha alnum. split; vm_compute; reflexivity.
Qed.
Print Assumptions json_reparse_refuted.

(** ** Examples *)
Definition no_letters : Z -> bool := fun _ => false.
Example ex_json_lex : json_lex no_letters no_letters (flat_source (lit "{""a"": -1.5e3}")) standard =
  Some [Token KLBrace 0 1; Token KStringLit 1 4; Token KColon 4 5; Token KWhitespace 5 6; Token KNumberLit 6 12; Token KRBrace 12 13; Token KEof 13 13].
Proof. vm_compute. reflexivity. Qed.
Example ex_json_valid : jtext (lit " [null ]") (JArray [JNull]).
Proof.
  apply (TText [32%Z] (lit "[null ]") []); [constructor; [now left | constructor] | | constructor]. apply (VArray (lit "null ") [JNull]). apply EOne. apply (TText [] (lit "null") [32%Z]); [constructor | constructor | constructor; [now left | constructor]].
Qed.
Example ex_json_parse : json_parse no_letters no_letters standard (lit " [null ]") None =
  Some (GNode KRoot 7 [GNode KArray 7 [GLeaf KLBracket 1 None; GNode KNull 5 [GLeaf KNullLit 4 None; GLeaf KWhitespace 1 None]; GLeaf KRBracket 1 None]], []).
Proof. vm_compute. reflexivity. Qed.
Example ex_json_errors : exists root, json_parse no_letters no_letters standard (lit "[1,]") None = Some (root, [(2, 3)]).
Proof. eexists. vm_compute. reflexivity. Qed.
Example ex_json_trailing : exists root, json_parse no_letters no_letters json5 (lit "[1,]") None = Some (root, []).
Proof. eexists. vm_compute. reflexivity. Qed.
