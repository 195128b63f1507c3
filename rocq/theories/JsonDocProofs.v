(** The JSON lexer and parser together. *)
From Verif Require Import Base Utf8 Utf8Facts EditModel LexModel LexSpec CursorModel CursorSpec CursorProofs TreeModel TreeSpec TreeProofs ParserModel ParserSpec ParserProofs.
From Verif Require Import JsonSpec JsonModel JsonLangSpec JsonLexProofs JsonParseProofs JsonTextProofs.

Section Props.
  Variable (alpha alnum : Z -> bool).

  Lemma json_lex_pieces src text cfg cs : serves src text -> text = encode cs -> Forall is_scalar cs ->
    exists ps, pieces_of alpha alnum cfg cs ps /\ text_of_pieces ps = cs /\ json_lex alpha alnum src cfg = Some (spans 0 ps ++ [eof_at (length text)]).
  Proof.
    intros Hs -> F. destruct (json_lex_view alpha alnum src (encode cs) cfg Hs) as (cs' & ps & R & P & E). assert (cs' = cs).
    { destruct R as (F' & _ & R). unfold substr in R. rewrite skipn_O, Nat.sub_0_r, firstn_all in R. now apply encode_inj. }
    subst cs'. exists ps. split; [assumption|]. split; [now apply (pieces_text alpha alnum cfg) | assumption].
  Qed.

  Lemma spans_order ps : forall off, in_order off (spans off ps) (off + length (encode (text_of_pieces ps))).
  Proof.
    assert (Low : forall ps a b e, a <= b -> in_order b ps e -> in_order a ps e) by (intros [| t r] a b e L H; cbn in *; [lia | intuition lia]).
    induction ps as [| [k s] r IH]; intros off; cbn [spans text_of_pieces flat_map snd]; [cbn; lia|]. fold (text_of_pieces r). rewrite encode_app, app_length, Nat.add_assoc. destruct k as [k|]; cbn [app].
    - cbn [in_order tk_start tk_end]. split; [lia|]. split; [lia | apply IH].
    - apply (Low _ off (off + length (encode s))); [lia | apply IH].
  Qed.
  Lemma order_app l1 : forall a l2 b c, in_order a l1 b -> in_order b l2 c -> in_order a (l1 ++ l2) c.
  Proof.
    induction l1 as [| t r IH]; intros a l2 b c H1 H2; cbn [app in_order] in *; [|intuition eauto]. destruct l2; cbn in *; [lia | intuition lia].
  Qed.
  Lemma order_sum l : forall a b, in_order a l b -> a <= b /\ list_sum (map (fun t => snd (tok_yield t)) l) <= b - a /\ Forall (fun t => tk_end t - tk_start t <= b - a) l.
  Proof.
    induction l as [| t r IH]; intros a b H; cbn [in_order] in H; [cbn; split; [assumption|]; split; [lia | constructor]|]. destruct H as (H1 & H2 & H3). apply IH in H3 as (A & B & C). split; [lia|]. split; [cbn [map]; match goal with |- context [list_sum (?x :: ?l)] => change (list_sum (x :: l)) with (x + list_sum l) end; unfold tok_yield at 1; cbn [snd]; lia|].
    constructor; [lia|]. revert C. apply Forall_impl. intros x Hx. lia.
  Qed.
  Lemma spans_tile ps : left_out ps = [] -> forall off, tiles tok_span off (spans off ps) (off + length (encode (text_of_pieces ps))).
  Proof.
    induction ps as [| [k s] r IH]; intros H off; cbn [spans text_of_pieces flat_map snd]; [cbn; rewrite Nat.add_0_r; constructor|]. fold (text_of_pieces r). destruct k as [k|]; [|discriminate]. rewrite encode_app, app_length, Nat.add_assoc. cbn [app]. apply TCons; [reflexivity | cbn; lia|]. cbn [tok_span fst snd tk_end]. now apply IH.
  Qed.

  Lemma spans_inj ps : forall off qs, Forall (fun p : piece => snd p <> []) qs -> left_out ps = [] -> text_of_pieces qs = text_of_pieces ps -> spans off qs = spans off ps -> qs = ps.
  Proof.
    assert (Pos : forall s : list Z, s <> [] -> 0 < length (encode s)) by (intros [| c s] N; [contradiction|]; cbn [encode]; rewrite app_length, encode_char_length; pose proof (char_len_pos c); lia).
    assert (Same : forall (s t : list Z) u v, s ++ u = t ++ v -> length (encode s) = length (encode t) -> s = t /\ u = v).
    { induction s as [| c s IH]; intros [| d t] u v E L; cbn [app] in E.
      - now split.
      - specialize (Pos (d :: t) ltac:(discriminate)). cbn in L. cbn in Pos. lia.
      - specialize (Pos (c :: s) ltac:(discriminate)). cbn in L. cbn in Pos. lia.
      - injection E as -> E. cbn [encode] in L. rewrite !app_length in L. destruct (IH t u v E) as [-> ->]; [lia | now split]. }
    induction ps as [| [k s] r IH]; intros off qs F L T E.
    - destruct qs as [| [k' s'] r']; [reflexivity|]. exfalso. cbn [text_of_pieces flat_map snd] in T. apply app_eq_nil in T as [T _]. inversion F; subst. contradiction.
    - destruct k as [k|]; [|discriminate]. change (left_out r = []) in L. destruct qs as [| [k' s'] r']; [discriminate|]. cbn [spans] in E. cbn [text_of_pieces flat_map snd] in T. inversion F; subst. cbn [snd] in *. destruct k' as [k'|]; cbn [app] in E.
      + injection E as -> Ee E. destruct (Same s' s _ _ T ltac:(lia)) as [-> T']. f_equal. apply (IH (off + length (encode s))); assumption.
      + exfalso. pose proof (spans_order r' (off + length (encode s'))) as O. rewrite E in O. cbn in O. specialize (Pos s' ltac:(assumption)). lia.
  Qed.

  Lemma leaf_kinds_toks toks : leaf_kinds (map tok_yield toks) = kinds toks.
  Proof. unfold leaf_kinds, kinds. now rewrite map_map. Qed.

  (** Parsing without a previous tree. *)
  Lemma json_parse_spec cfg cs : Forall is_scalar cs -> (Z.of_nat (length (encode cs)) < 2 ^ 32)%Z ->
    exists ps root errs lead used left, pieces_of alpha alnum cfg cs ps /\ text_of_pieces ps = cs /\
      json_lex alpha alnum (flat_source (encode cs)) cfg = Some (spans 0 ps ++ [eof_at (length (encode cs))]) /\
      json_parse alpha alnum cfg (encode cs) None = Some (root, errs) /\ spans 0 ps ++ [eof_at (length (encode cs))] = lead ++ used ++ left /\
      Forall (fun t => ignored (tk_kind t) = true) lead /\ match left with [] => True | t :: _ => ignored (tk_kind t) = false end /\ match used ++ left with [] => True | t :: _ => ignored (tk_kind t) = false end /\
      built root /\ yield root = map tok_yield used /\ (exists ch, root = GNode KRoot (width root) ch) /\
      (errs = [] -> tvalue cfg (kinds used)) /\ (forall v r, kinds (spans 0 ps ++ [eof_at (length (encode cs))]) = v ++ r -> tvalue cfg v -> errs = [] /\ kinds used = v).
  Proof.
    intros F L. assert (Hs : serves (flat_source (encode cs)) (encode cs)) by (apply flat_serves; now exists cs). destruct (json_lex_pieces _ _ cfg cs Hs eq_refl F) as (ps & P & T & E).
    assert (O : in_order 0 (spans 0 ps ++ [eof_at (length (encode cs))]) (length (encode cs))). { apply (order_app _ 0 _ (length (encode cs))); [|cbn; lia]. rewrite <- T. apply spans_order. }
    apply order_sum in O as (_ & O1 & O2).
    destruct (run_parser_spec cfg (spans 0 ps ++ [eof_at (length (encode cs))]) (length (encode cs))) as (root & errs & lead & used & left & H).
    { unfold lengths_fit. revert O2. apply Forall_impl. intros t Ht. lia. }
    { lia. }
    exists ps, root, errs, lead, used, left. split; [assumption|]. split; [assumption|]. split; [assumption|]. unfold json_parse. rewrite E. exact H.
  Qed.

  Lemma kp_no_eof cfg cs ps : pieces_of alpha alnum cfg cs ps -> ~ In KEof (kp ps).
  Proof.
    intros H I. apply pieces_sound in H. apply in_flat_map in I as ([k s] & I1 & I2). rewrite Forall_forall in H. apply H in I1 as [_ L]. cbn [fst snd] in *. destruct k as [k|]; [|destruct I2]. destruct (ignored k); [destruct I2|]. destruct I2 as [I2 | []]. subst k.
    inversion L as [| | | | | k0 s0 Hi | k0 s0 Hi | | | |]; subst; cbn [In] in Hi; repeat (destruct Hi as [Hi | Hi]; [discriminate Hi|]); destruct Hi.
  Qed.

  (** ** Valid texts *)
  Lemma plain_left ps : Forall sound_plain ps -> left_out ps = [].
  Proof. induction 1 as [| [k s] r [W _] _ IH]; [reflexivity|]. destruct k as [k|]; [exact IH | destruct W]. Qed.
  Lemma plain_trivia cfg ps : Forall sound_plain ps -> Forall (piece_sound alpha alnum cfg) ps -> kp ps = [] -> ws (text_of_pieces ps).
  Proof.
    induction 1 as [| [k s] r [W P] _ IH]; intros F E; [constructor|]. inversion F as [| ? ? [N L] F']; subst. cbn [kp flat_map fst] in E. apply app_eq_nil in E as [E1 E2]. cbn [text_of_pieces flat_map snd]. apply Forall_app. split; [|now apply IH].
    destruct k as [k|]; [|destruct W]. cbn [fst snd] in *. destruct (ignored k) eqn:Ei; [|discriminate]. unfold ignored in Ei. apply orb_prop in Ei as [Ei | Ei]; apply Nat.eqb_eq in Ei; subst k; [now apply W|]. exfalso. cbn [plain snd] in P.
    inversion L as [| | | | | k0 s0 Hi | k0 s0 Hi | s0 Hc Hd | | |]; subst; try (cbn [In] in Hi; repeat (destruct Hi as [Hi | Hi]; [discriminate Hi|]); destruct Hi). destruct Hd as [(x & ->) | (x & ->)]; destruct P; discriminate.
  Qed.
  Lemma spans_split ps : left_out ps = [] -> forall off l1 l2, spans off ps = l1 ++ l2 -> exists p1 p2, ps = p1 ++ p2 /\ l1 = spans off p1 /\ l2 = spans (off + length (encode (text_of_pieces p1))) p2.
  Proof.
    induction ps as [| [k s] r IH]; intros L off l1 l2 E.
    - destruct l1; [|discriminate]. destruct l2; [|discriminate]. exists [], []. split; [reflexivity | now split].
    - destruct k as [k|]; [|discriminate]. destruct l1 as [| t l1].
      + exists [], ((Some k, s) :: r). split; [reflexivity|]. split; [reflexivity|]. cbn [app] in E. cbn. now rewrite Nat.add_0_r.
      + cbn [spans app] in E. injection E as <- E. destruct (IH L _ _ _ E) as (p1 & p2 & -> & -> & ->). exists ((Some k, s) :: p1), p2. split; [reflexivity|]. split; [reflexivity|]. cbn [text_of_pieces flat_map snd]. now rewrite encode_app, app_length, Nat.add_assoc.
  Qed.
  Lemma spans_width ps : left_out ps = [] -> forall off, list_sum (map (fun t => snd (tok_yield t)) (spans off ps)) = length (encode (text_of_pieces ps)).
  Proof.
    induction ps as [| [k s] r IH]; intros L off; [reflexivity|]. destruct k as [k|]; [|discriminate]. cbn [spans app map text_of_pieces flat_map snd]. fold (text_of_pieces r). rewrite encode_app, app_length, <- (IH L (off + length (encode s))).
    match goal with |- list_sum (?x :: ?l) = _ => change (list_sum (x :: l)) with (x + list_sum l) end. unfold tok_yield at 1. cbn [snd tk_start tk_end]. lia.
  Qed.
  Lemma value_first cfg ks : tvalue cfg ks -> exists k r, ks = k :: r /\ In k [KStringLit; KNumberLit; KBooleanLit; KNullLit; KLBracket; KLBrace].
  Proof. intros [k H | | s t _ _ | | s t _ _]; eexists _, _; (split; [reflexivity|]); cbn [In] in *; tauto. Qed.
  Lemma piece_first cfg k s : sound_plain (Some k, s) -> piece_sound alpha alnum cfg (Some k, s) -> In k [KStringLit; KNumberLit; KBooleanLit; KNullLit; KLBracket; KLBrace] -> exists c r, s = c :: r /\ ~ is_ws c.
  Proof.
    intros [(_ & W2 & W3) _] [_ L] I. cbn [fst snd] in *.
    assert (Num : forall s, jnumber s -> exists c r, s = c :: r /\ ~ is_ws c) by (intros x Hx; destruct (number_head_char alpha alnum x Hx) as (c0 & t0 & E0 & H0); exists c0, t0; split; [exact E0 | unfold is_ws, is_digit in *; lia]).
    assert (Str : forall s, (exists d, jstring s d) -> exists c r, s = c :: r /\ ~ is_ws c) by (intros x (d & b & -> & _); eexists _, _; split; [reflexivity | unfold is_ws; lia]).
    assert (Word : forall (k0 : nat) (b : list Z) l, In (k0, b) l -> (forall x, In x (map snd l) -> match x with [] => false | c :: _ => negb ((c =? 32) || (c =? 9) || (c =? 10) || (c =? 13))%Z end = true) -> exists c r, b = c :: r /\ ~ is_ws c).
    { intros k0 b l Hi Hl. specialize (Hl b (in_map snd _ _ Hi)). destruct b as [| c r]; [discriminate|]. exists c, r. split; [reflexivity|]. unfold is_ws. lia. }
    inversion L as [x y Hx Hy | b Hb | b Hb Hx | h d1 dot d2 e Hh H1 Hd H2 H3 He Hn | h d Hx Hh Hn Hd | k0 b Hi | k0 b Hi | b Hc Hd | x y Hb Hx Hy | b Hb | x Hx Hy]; subst;
      try (apply Str; now apply W3); try (apply Num; now apply W2); try (exfalso; cbn [In] in I; repeat (destruct I as [I | I]; [discriminate I|]); exact I).
    - apply (Word _ _ _ Hi). intros x Hx. cbn [map snd In] in Hx. destruct Hx as [<- | [<- | [<- | []]]]; reflexivity.
    - apply (Word _ _ _ Hi). intros x Hx. cbn [map snd In] in Hx. destruct Hx as [<- | [<- | [<- | [<- | [<- | [<- | []]]]]]]; reflexivity.
  Qed.

  Lemma kinds_split_eof a k r : ~ In KEof k -> k ++ [KEof] = a ++ r -> ~ In KEof a -> exists b, k = a ++ b /\ r = b ++ [KEof].
  Proof.
    revert k. induction a as [| x a IH]; intros k Nk E Na; cbn [app] in E; [exists k; split; [reflexivity | now symmetry]|]. destruct k as [| y k]; cbn [app] in E.
    - injection E as <- _. exfalso. apply Na. now left.
    - injection E as <- E. destruct (IH k) as (b & -> & ->); [intro H; apply Nk; now right | assumption | intro H; apply Na; now right |]. now exists b.
  Qed.

  Lemma valid_parse cfg cs v : Forall is_scalar cs -> (Z.of_nat (length (encode cs)) < 2 ^ 32)%Z -> jtext cs v ->
    exists root ps w rest, json_parse alpha alnum cfg (encode cs) None = Some (root, []) /\
      json_lex alpha alnum (flat_source (encode cs)) cfg = Some (spans 0 ps ++ [eof_at (length (encode cs))]) /\
      text_of_pieces ps = cs /\ Forall well_formed ps /\
      cs = w ++ rest /\ ws w /\ (exists c r, rest = c :: r /\ ~ is_ws c) /\ width root = length (encode rest) /\
      built root /\ (exists ch, root = GNode KRoot (width root) ch) /\
      (exists lead, map tok_yield (spans 0 ps) = lead ++ yield root /\ Forall (fun y => ignored (fst y) = true) lead).
  Proof.
    intros F L J. destruct (json_parse_spec cfg cs F L) as (ps & root & errs & lead & used & left & P & T & El & Ep & Et & Hl & Hf & Hu & B & Y & R & _ & Acc).
    destruct (text_pieces alpha alnum cfg cs v J) as (ps0 & P0 & S0 & V0). assert (ps0 = ps) by exact (pieces_unique alpha alnum cfg cs ps0 P0 S0 ps P). subst ps0. pose proof (pieces_sound _ _ _ _ _ P) as Snd.
    set (n := length (encode cs)) in *. assert (K : kinds (spans 0 ps ++ [eof_at n]) = kp ps ++ [KEof]) by (rewrite kinds_app, kinds_spans; reflexivity).
    destruct (Acc _ _ K V0) as [-> Ku]. pose proof (kinds_trivia lead Hl) as Kl. assert (K' := K). rewrite Et, !kinds_app, Kl, Ku in K'. cbn [app] in K'. apply app_inv_head in K'.
    assert (left = [eof_at n]) as ->.
    { destruct left as [| t r]; [discriminate|]. unfold kinds in K'. cbn [map filter] in K'. rewrite Hf in K'. cbn [negb] in K'. injection K' as Kt Kr. fold (kinds r) in Kr. destruct r as [| t2 r] using rev_ind.
      - rewrite app_assoc in Et. apply app_inj_tail in Et as [_ ->]. reflexivity.
      - exfalso. rewrite kinds_app in Kr. apply app_eq_nil in Kr as [_ Kr]. change (lead ++ used ++ t :: r ++ [t2]) with (lead ++ used ++ (t :: r) ++ [t2]) in Et. rewrite !app_assoc in Et. apply app_inj_tail in Et as [_ <-]. discriminate. }
    rewrite app_assoc in Et. apply app_inj_tail in Et as [Et _]. pose proof (plain_left _ S0) as Lo. destruct (spans_split ps Lo 0 lead used Et) as (p1 & p2 & -> & E1 & E2).
    apply Forall_app in S0 as [S1 S2]. assert (Snd' := Snd). apply Forall_app in Snd' as [N1 N2]. rewrite text_app in T.
    assert (K1 : kp p1 = []) by (rewrite <- (kinds_spans p1 0), <- E1; exact Kl).
    assert (Lo2 : left_out p2 = []) by (apply plain_left; assumption).
    exists root, (p1 ++ p2), (text_of_pieces p1), (text_of_pieces p2). split; [assumption|]. split; [assumption|]. split; [now rewrite text_app|].
    split; [apply Forall_app; split; [revert S1 | revert S2]; apply Forall_impl; now intros p []|]. split; [now symmetry|]. split; [exact (plain_trivia cfg p1 S1 N1 K1)|].
    split; [|split].
    - rewrite kp_app, K1 in V0. cbn [app] in V0. destruct (value_first cfg _ V0) as (k & r & Ek & Ik). destruct p2 as [| [k2 s2] p2]; [discriminate|]. destruct k2 as [k2|]; [|discriminate].
      inversion S2; subst. inversion N2; subst. assert (k2 = k) as ->.
      { cbn [spans app] in Hu. cbn [app] in Hu. cbn [tk_kind] in Hu. cbn [kp flat_map fst] in Ek. rewrite Hu in Ek. cbn [app] in Ek. now injection Ek as ->. }
      destruct (piece_first cfg k s2) as (c & s3 & -> & Hc); try assumption. exists c, (s3 ++ text_of_pieces p2). now split.
    - rewrite <- yield_width, Y, map_map. rewrite E2. apply spans_width. assumption.
    - split; [assumption|]. split; [assumption|]. exists (map tok_yield lead). split; [now rewrite Y, <- map_app, <- Et|]. rewrite Forall_map. exact Hl.
  Qed.

  (** A text without diagnostics whose tokens are well formed and all used is a JSON text. *)
  Lemma parse_valid cs root ps : Forall is_scalar cs -> (Z.of_nat (length (encode cs)) < 2 ^ 32)%Z ->
    json_parse alpha alnum standard (encode cs) None = Some (root, []) ->
    json_lex alpha alnum (flat_source (encode cs)) standard = Some (spans 0 ps ++ [eof_at (length (encode cs))]) -> text_of_pieces ps = cs -> Forall well_formed ps ->
    kinds (spans 0 ps) = leaf_kinds (yield root) -> exists v, jtext cs v.
  Proof.
    intros F L Ep El T W K. destruct (json_parse_spec standard cs F L) as (qs & root' & errs & lead & used & left & P & Tq & El' & Ep' & Et & Hl & Hf & Hu & B & Y & R & Sound & _).
    rewrite Ep in Ep'. injection Ep' as <- <-. rewrite El in El'. injection El' as E. apply app_inj_tail in E as [E _]. pose proof (pieces_sound _ _ _ _ _ P) as Snd.
    assert (Lo : left_out ps = []) by (clear - W; induction W as [| [k s] r H _ IH]; [reflexivity|]; destruct k; [exact IH | destruct H]).
    assert (qs = ps). { apply (spans_inj ps 0 qs); [|assumption | now rewrite Tq | now symmetry]. revert Snd. apply Forall_impl. now intros p []. }
    subst qs. destruct pieces_json with (alpha := alpha) (alnum := alnum) as (PJ & _). destruct (PJ (kp ps)) with (ps := ps) as (v & J).
    - rewrite <- (kinds_spans ps 0), K, Y, leaf_kinds_toks. now apply Sound.
    - clear - W Snd. induction W; inversion Snd; subst; constructor; [now split | auto].
    - reflexivity.
    - exists v. now rewrite <- T.
  Qed.
End Props.
