(** Theorems about highlighting and its exporters. *)
From Verif Require Import Base Utf8 Utf8Facts VfsModel VfsProofs TreeModel TreeSpec TreeProofs HiModel JsonSpec HiSpec HiProofs.

(** ** Segments *)

(** C52: over a tree whose leaves can be cut out of the source, the segments are those of the leaves in order, tile the span
    of the tree, and their texts put together are the source text of that span. *)
Theorem segments_cover : forall style_of source t, valid source -> built t ->
  (forall k a b, In (k, a, b) (leaves t 0) -> b <= length source /\ is_boundary source a = true /\ is_boundary source b = true) ->
  exists segs, highlight_tree style_of source t 0 [] = Some segs /\
    tiles segment_span 0 segs (width t) /\
    encode (flat_map sg_text segs) = substr source 0 (width t) /\
    map sg_style segs = map (fun l => style_of (fst (fst l))) (leaves t 0).
Proof.
  intros style_of source t Hv Hb Hl.
  assert (Hc : Forall (cuttable source) (leaves t 0)).
  { assert (T := leaves_tile t 0). apply Forall_forall. intros [[k a] b] Hi. destruct (Hl _ _ _ Hi) as (H1 & H2 & H3). cbn.
    assert (Hab : a <= b).
    { exact (tiles_ordered _ _ _ T _ _ _ Hi). }
    unfold str_get. rewrite H2, H3. destruct (Nat.leb_spec a b); [|lia]. destruct (Nat.leb_spec b (length source)); [|lia]. discriminate. }
  eexists. split; [apply highlight_spec; assumption|]. cbn [app]. split; [|split].
  - apply segments_tile. apply (leaves_tile t 0).
  - apply segments_text; try assumption. apply (leaves_tile t 0).
  - rewrite map_map. apply map_ext. intros [[k a] b]. reflexivity.
Qed.
Print Assumptions segments_cover.

(** Otherwise the highlighter panics. *)
Theorem segments_panic : forall style_of source t k a b, built t -> In (k, a, b) (leaves t 0) ->
  str_get source a b = None -> highlight_tree style_of source t 0 [] = None.
Proof.
  intros style_of source t k a b Hb Hi Hn. apply highlight_panic; [assumption|]. intros F. rewrite Forall_forall in F. now apply (F _ Hi).
Qed.
Print Assumptions segments_panic.

(** C52: without a parser, one segment for the whole source. *)
Theorem plain_covers : forall t source, valid source ->
  tiles segment_span 0 (highlight_plain t source) (length source) /\ encode (flat_map sg_text (highlight_plain t source)) = source.
Proof.
  intros t source Hv. split.
  - constructor; [reflexivity | cbn; lia | constructor].
  - cbn. rewrite app_nil_r. now destruct (valid_chars _ Hv) as [-> _].
Qed.
Print Assumptions plain_covers.

Definition red : style := Style (Some (lit "#FF0000")) None true false false.
Definition sample_tree : green := GNode 9 6 [GLeaf 1 3 None; GNode 8 3 [GLeaf 2 1 None; GLeaf 3 2 None]].
Example segments_case :
  valid (lit "let" ++ [32%Z] ++ encode [233%Z]) /\ built sample_tree /\
  highlight_tree (fun k => if k =? 1 then red else style_default) (lit "let" ++ [32%Z] ++ encode [233%Z]) sample_tree 0 [] =
    Some [Segment 0 3 red (lit "let"); Segment 3 4 style_default [32%Z]; Segment 4 6 style_default [233%Z]] /\
  highlight_tree (fun k => red) (lit "let" ++ encode [233%Z] ++ [32%Z]) sample_tree 0 [] = None.
Proof.
  split; [apply validb_valid; vm_compute; reflexivity|]. split; [|split; vm_compute; reflexivity].
  eapply (BNode 9 [GLeaf 1 3 None; GNode 8 3 [GLeaf 2 1 None; GLeaf 3 2 None]]); [|reflexivity].
  constructor; [constructor|]. constructor; [|constructor].
  eapply (BNode 8 [GLeaf 2 1 None; GLeaf 3 2 None]); [|reflexivity]. constructor; [constructor|]. constructor; [constructor | constructor].
Qed.

(** ** Styles *)

(** C53: the style of a scope is that of its longest ancestor in the theme, or the default. *)
Theorem style_most_specific : forall t scope,
  (exists p, best_ancestor t scope p (resolve_style t scope)) \/ (unknown t scope /\ default_style t (resolve_style t scope)).
Proof.
  intros t scope. unfold resolve_style. rewrite resolve_match.
  assert (M := match_loop_spec (S (length scope)) t scope (Nat.lt_succ_diag_r _)).
  destruct (match_loop (S (length scope)) t scope) as [[p s]|]; [left; now exists p | right; split; [assumption | apply fallback_spec]].
Qed.
Print Assumptions style_most_specific.

(** There is at most one such style. *)
Theorem best_ancestor_unique : forall t s p st p' st', best_ancestor t s p st -> best_ancestor t s p' st' -> p = p' /\ st = st'.
Proof. exact best_unique. Qed.
Print Assumptions best_ancestor_unique.

(** C53: for several scopes, the style of a deepest ancestor, for the earliest scope that has one; or the default if the
    theme knows none. *)
Theorem styles_deepest : forall t scopes,
  (exists l1 s l2 p, scopes = l1 ++ s :: l2 /\ best_ancestor t s p (resolve_styles t scopes) /\
     (forall s' q st', In s' l1 -> best_ancestor t s' q st' -> dots q < dots p) /\
     (forall s' q st', In s' l2 -> best_ancestor t s' q st' -> dots q <= dots p)) \/
  (Forall (unknown t) scopes /\ default_style t (resolve_styles t scopes)).
Proof.
  intros t scopes. unfold resolve_styles.
  assert (H := held_fold t scopes [] ((-1)%Z, None) (conj eq_refl (Forall_nil _))). cbn [app] in H.
  unfold held in H. destruct (snd _) as [st|].
  - left. destruct H as (l1 & s & l2 & p & E & B & _ & H1 & H2). exists l1, s, l2, p. repeat split; try assumption; apply B.
  - right. split; [apply H | apply fallback_spec].
Qed.
Print Assumptions styles_deepest.

Definition plain_style (c : str) : style := Style (Some c) None false false false.
Definition sample_theme : theme := [(lit "keyword", plain_style (lit "red")); (lit "keyword.control", plain_style (lit "blue")); (lit "none", plain_style (lit "grey"))].
Example styles_case :
  resolve_style sample_theme (lit "keyword.control.rust") = plain_style (lit "blue") /\
  resolve_style sample_theme (lit "keyword.other.rust") = plain_style (lit "red") /\
  resolve_style sample_theme (lit "keywords") = plain_style (lit "grey") /\
  resolve_styles sample_theme [lit "keyword.x"; lit "keyword.control.x"] = plain_style (lit "blue").
Proof. repeat split; vm_compute; reflexivity. Qed.

(** C89, if the theme says nothing about the language as a whole: a token whose name the theme knows is drawn with a style
    found for one of its names, not with the style of the whole language. *)
Theorem token_style_own_partial : forall t specific universal language prefix p st,
  unknown t (prefix ++ lit "." ++ language) ->
  best_ancestor t specific p st ->
  exists s q, In s [specific ++ lit "." ++ language; specific; prefix ++ lit "." ++ universal; universal] /\
    best_ancestor t s q (resolve_styles t (token_scopes specific universal language prefix)).
Proof.
  intros t specific universal language prefix p st Hu Hb.
  destruct (styles_deepest t (token_scopes specific universal language prefix)) as [(l1 & s & l2 & q & E & B & _) | [F _]].
  - exists s, q. split; [|assumption].
    assert (Hi : In s (token_scopes specific universal language prefix)) by (rewrite E; apply in_or_app; right; now left).
    unfold token_scopes in Hi. rewrite !in_app_iff in Hi. destruct Hi as [[Hi | []] | [Hi | [Hi | [Hi | [Hi | []]]]]].
    + now left.
    + destruct (str_eqb specific universal); [contradiction|]. destruct Hi as [Hi | []]. right. now left.
    + right. right. now left.
    + right. right. right. now left.
    + exfalso. subst s. destruct B as (A & M & _). rewrite (Hu _ A) in M. discriminate.
  - exfalso. assert (Hd : ancestor p (specific ++ lit "." ++ language)).
    { destruct Hb as ([N [E | (r & E)]] & _); (split; [assumption|]); right; rewrite E; [exists language; reflexivity|].
      exists (r ++ lit "." ++ language). now rewrite <- !app_assoc. }
    rewrite Forall_forall in F. assert (G := F (specific ++ lit "." ++ language) (or_introl eq_refl) _ Hd). destruct Hb as (_ & M & _). congruence.
Qed.
Print Assumptions token_style_own_partial.

(** C89 fails: a theme with a style for keywords and one for the language draws the keywords in the style of the language. *)
Theorem token_style_own_refuted : exists t specific universal language prefix p st,
  best_ancestor t specific p st /\
  ~ exists s q, In s [specific ++ lit "." ++ language; specific; prefix ++ lit "." ++ universal; universal] /\
    best_ancestor t s q (resolve_styles t (token_scopes specific universal language prefix)).
Proof.
  exists [(lit "keyword", plain_style (lit "red")); (lit "source.rust", plain_style (lit "grey"))],
    (lit "keyword"), (lit "keyword"), (lit "rust"), (lit "source"), (lit "keyword"), (plain_style (lit "red")). split.
  - split; [split; [discriminate | now left]|]. split; [reflexivity|]. intros q st' [_ [<- | (r & E)]] _; [lia|].
    apply (f_equal (@length Z)) in E. rewrite !app_length in E. cbn in E |- *. lia.
  - intros (s & q & Hi & B).
    assert (E : resolve_styles [(lit "keyword", plain_style (lit "red")); (lit "source.rust", plain_style (lit "grey"))]
      (token_scopes (lit "keyword") (lit "keyword") (lit "rust") (lit "source")) = plain_style (lit "grey")) by (vm_compute; reflexivity).
    rewrite E in B. clear E. destruct B as ([N A] & M & _).
    assert (Q : q = lit "source.rust").
    { cbn [mget] in M. destruct (str_eqb (lit "keyword") q) eqn:E1; [vm_compute in M; discriminate|].
      destruct (str_eqb (lit "source.rust") q) eqn:E2; [symmetry; now apply str_eqb_spec | discriminate]. }
    subst q. repeat destruct Hi as [<- | Hi]; try contradiction; destruct A as [A | (r & A)]; vm_compute in A; discriminate.
Qed.
Print Assumptions token_style_own_refuted.

(** ** HTML *)

(** C54: no raw markup characters. *)
Theorem escape_neutral : forall s c, In c (html_escape s) -> c <> 60%Z /\ c <> 62%Z /\ c <> 34%Z /\ c <> 39%Z.
Proof. exact escape_chars_safe. Qed.
Print Assumptions escape_neutral.

(** C54: a reader of the HTML sees the original text, and only that. *)
Theorem escape_read_back : forall s x, shows (html_escape s) x <-> x = s.
Proof. intros s x. split; [intros H; exact (shows_fun _ _ H _ (escape_alone s)) | intros ->; apply escape_alone]. Qed.
Print Assumptions escape_read_back.

(** C54: different texts are escaped differently. *)
Theorem escape_injective : forall s s', html_escape s = html_escape s' -> s = s'.
Proof. intros s s' E. apply (shows_fun (html_escape s)); [apply escape_alone | rewrite E; apply escape_alone]. Qed.
Print Assumptions escape_injective.

(** C54: both implementations agree. *)
Theorem escape_implementations_agree : forall s, html_escape_diag s = html_escape s.
Proof. exact escapes_agree. Qed.
Print Assumptions escape_implementations_agree.

Example escape_case : html_escape (lit "a<b && 'c'") = lit "a&lt;b &amp;&amp; &#39;c&#39;".
Proof. vm_compute. reflexivity. Qed.

(** C90, for class names, or colours without angle brackets: the exported page shows exactly the texts of the segments,
    in order. *)
Theorem html_shows_source_partial : forall inline segments,
  (inline = true -> Forall (fun s => tag_free (st_color (sg_style s)) /\ tag_free (st_background (sg_style s))) segments) ->
  forall x, shows (export_html false inline segments) x <-> x = flat_map sg_text segments.
Proof.
  intros inline segments H x. assert (G := export_html_shows inline segments H).
  split; [intros Hx; exact (shows_fun _ _ Hx _ G) | intros ->; exact G].
Qed.
Print Assumptions html_shows_source_partial.

(** The style sheet comes before the same page. *)
Theorem html_css_first : forall inline segments, export_html true inline segments = css_block ++ export_html false inline segments.
Proof. reflexivity. Qed.
Print Assumptions html_css_first.

(** C90 fails: the colours of a theme are not escaped, so a theme can add text and markup to the page. *)
Theorem html_shows_source_refuted : exists segments, ~ shows (export_html false true segments) (flat_map sg_text segments).
Proof.
  exists [Segment 0 1 (plain_style ([34%Z] ++ lit ">hi<b title=" ++ [34%Z])) (lit "x")]. intros H.
  assert (G : shows (export_html false true [Segment 0 1 (plain_style ([34%Z] ++ lit ">hi<b title=" ++ [34%Z])) (lit "x")]) (lit "hix")).
  { set (q := [34%Z]). assert (T : forall t r x, ~ In 60%Z t -> ~ In 62%Z t -> shows r x -> shows (60%Z :: t ++ 62%Z :: r) x) by (intros; now apply STag).
    apply (T (lit "div class=" ++ q ++ lit "highlight" ++ q)); [no_in | no_in |].
    apply (T (lit "span style=" ++ q ++ lit "color: " ++ q)); [no_in | no_in |].
    apply (SChar 104); [lia | lia | lia |]. apply (SChar 105); [lia | lia | lia |].
    apply (T (lit "b title=" ++ q ++ q)); [no_in | no_in |].
    apply (SChar 120); [lia | lia | lia |].
    apply (T (lit "/span")); [no_in | no_in |]. apply (T (lit "/div")); [no_in | no_in |]. constructor. }
  assert (E := shows_fun _ _ H _ G). vm_compute in E. discriminate.
Qed.
Print Assumptions html_shows_source_refuted.

Example html_case : tag_free (st_color red) /\ export_html false true [Segment 0 1 red (lit "<")] =
  lit "<div class=" ++ [34%Z] ++ lit "highlight" ++ [34%Z] ++ lit "><span style=" ++ [34%Z] ++ lit "color: #FF0000; font-weight: bold" ++ [34%Z] ++ lit ">&lt;</span></div>".
Proof. split; [intros s [= <-]; split; no_in | vm_compute; reflexivity]. Qed.

(** C91, for inline styles with colours that hold no semicolon: equal markup of equal texts means equal styles. *)
Theorem html_keeps_styles_partial : forall s s', sg_text s = sg_text s' ->
  plain_color (st_color (sg_style s)) -> plain_color (st_background (sg_style s)) ->
  plain_color (st_color (sg_style s')) -> plain_color (st_background (sg_style s')) ->
  export_html false true [s] = export_html false true [s'] -> sg_style s = sg_style s'.
Proof.
  intros s s' Et C B C' B' E. apply inline_inj; try assumption. unfold export_html in E. cbn [flat_map] in E. rewrite !app_nil_r in E.
  do 6 apply app_inv_head in E. now apply app_inv_tail in E.
Qed.
Print Assumptions html_keeps_styles_partial.

(** C91 fails with classes: the colours of the theme do not appear at all. *)
Theorem html_keeps_styles_refuted : exists s s', sg_text s = sg_text s' /\
  st_color (sg_style s) = Some (lit "#FF0000") /\ st_color (sg_style s') = Some (lit "#00FF00") /\
  forall css, export_html css false [s] = export_html css false [s'].
Proof.
  exists (Segment 0 1 (plain_style (lit "#FF0000")) (lit "x")), (Segment 0 1 (plain_style (lit "#00FF00")) (lit "x")).
  repeat split.
Qed.
Print Assumptions html_keeps_styles_refuted.

(** ** JSON *)

(** C55: the escaped text is a JSON string body for the original text. *)
Theorem json_string_round_trip : forall s, scalars s -> jchars (json_escape s) s.
Proof. exact json_escape_chars. Qed.
Print Assumptions json_string_round_trip.

(** C55: the whole export is a JSON document holding the segments, with their spans, styles and texts, and the source. *)
Theorem json_export_document : forall segments source, scalars source ->
  Forall (fun s => scalars (sg_text s) /\ style_scalars (sg_style s)) segments ->
  exists vs, Forall2 segment_value segments vs /\
    jvalue (export_json segments source) (JObject [(lit "segments", JArray vs); (lit "source", JString source)]).
Proof. exact export_json_value. Qed.
Print Assumptions json_export_document.

Example json_case : scalars [34; 10; 1; 233]%Z /\ json_escape [34; 10; 1; 233]%Z = [92; 34; 92; 110]%Z ++ [92%Z] ++ lit "u0001" ++ [233%Z].
Proof. split; [|vm_compute; reflexivity]. repeat (apply Forall_cons; [unfold is_scalar; lia|]). apply Forall_nil. Qed.

(** ** ANSI *)

(** C56: a terminal shows exactly the texts. *)
Theorem ansi_strips : forall segments, Forall (fun s => ~ In 27%Z (sg_text s)) segments ->
  forall x, displays (export_ansi segments) x <-> x = flat_map sg_text segments.
Proof.
  intros segments H x. assert (G := export_ansi_displays segments H).
  split; [intros Hx; exact (displays_fun _ _ Hx _ G) | intros ->; exact G].
Qed.
Print Assumptions ansi_strips.

Example ansi_case : export_ansi [Segment 0 2 red (lit "ab"); Segment 2 3 style_default (lit "c")] =
  [27%Z] ++ lit "[0;1;31mab" ++ [27%Z] ++ lit "[0mc".
Proof. vm_compute. reflexivity. Qed.
