(** Values of JSON texts: from the text to the tree and from the tree to the value. *)
From Verif Require Import Base Utf8 Utf8Facts EditModel ScanSpec SimdModel LexModel LexSpec CursorModel CursorSpec CursorProofs RopeModel TreeModel TreeSpec TreeProofs ParserModel ParserSpec ParserProofs.
From Verif Require Import JsonSpec JsonModel JsonLangSpec JsonLexProofs JsonParseProofs JsonTextProofs JsonDocProofs JsonAstModel JsonAstSpec JsonAstProofs.

(** ** The lexer cuts these texts into these pieces *)
Section Lexes.
  Variable (alpha alnum : Z -> bool).
  Notation pieces_of := (pieces_of alpha alnum standard).

  Definition lexes (r s : list Z) (ps : list piece) : Prop := forall qs, pieces_of r qs -> pieces_of (s ++ r) (ps ++ qs).
  Definition nonspace (r : list Z) : Prop := match r with [] => True | c :: _ => char_is_whitespace c = false end.

  Lemma lexes_cat r a b pa pb : lexes (b ++ r) a pa -> lexes r b pb -> lexes r (a ++ b) (pa ++ pb).
  Proof. intros Ha Hb qs H. rewrite <- !app_assoc. now apply Ha, Hb. Qed.
  Lemma lexes_one c t r k : lex1 alpha alnum standard c (t ++ r) = (Some k, c :: t, r) -> lexes r (c :: t) [(Some k, c :: t)].
  Proof.
    intros El qs H. cbn [app]. apply (POCons alpha alnum standard c (t ++ r) (Some k) (c :: t) r qs); [|reflexivity | discriminate | assumption]. right. right. rewrite El. change (jc_comments standard) with false. change (jc_single standard) with false. rewrite !andb_false_r. now split.
  Qed.
  Lemma lexes_ws w r : ws w -> nonspace r -> lexes r w (wsp w).
  Proof.
    intros W Hr. destruct w as [| c t]; [intros qs H; exact H|]. apply lexes_one. inversion W; subst. unfold lex1. assert (((c =? 32) || (c =? 9) || (c =? 10) || (c =? 13))%Z = true) as -> by (unfold is_ws in *; lia).
    destruct (run_unique char_is_whitespace (c :: t) r (c :: t ++ r) eq_refl (ws_space alpha alnum _ W) Hr) as [<- <-]. reflexivity.
  Qed.
  Lemma lexes_tok k s w r : lexes (w ++ r) s [(Some k, s)] -> ws w -> nonspace r -> lexes r (s ++ w) (tok k s w).
  Proof. intros H W N. change (tok k s w) with ([(Some k, s)] ++ wsp w). apply lexes_cat; [assumption | now apply lexes_ws]. Qed.

  Lemma str_run_body b : escaped_body b -> forall r, str_run false (b ++ 34%Z :: r) = (true, b ++ [34%Z], r).
  Proof.
    induction 1 as [| c s N1 N2 _ IH | c s _ IH]; intros r.
    - reflexivity.
    - cbn [app]. rewrite str_run_plain, IH by assumption. reflexivity.
    - cbn [app]. now rewrite str_run_pair, IH.
  Qed.
  Lemma lexes_string b r : escaped_body b -> lexes r (quoted b) [(Some KStringLit, quoted b)].
  Proof.
    intros H. apply (lexes_one 34 (b ++ [34%Z]) r). unfold lex1. change ((34 =? 32) || (34 =? 9) || (34 =? 10) || (34 =? 13))%Z with false. change (34 =? 34)%Z with true. cbv iota. rewrite <- app_assoc. cbn [app]. rewrite (str_run_body b H). reflexivity.
  Qed.
  Lemma lexes_number s r : jnumber s -> follow r -> lexes r s [(Some KNumberLit, s)].
  Proof.
    intros H Fr. destruct (number_head_char alpha alnum s H) as (c & t & -> & Hc). apply lexes_one. pose proof (number_run_json alpha alnum (jc_hex standard) _ r H Fr) as N. cbn [app] in N. unfold lex1.
    assert (((c =? 32) || (c =? 9) || (c =? 10) || (c =? 13))%Z = false) as -> by (unfold is_digit in *; lia). assert ((c =? 34)%Z = false) as -> by (unfold is_digit in *; lia). assert (((c =? 45)%Z || ascii_digit c) = true) as -> by (unfold is_digit, ascii_digit in *; lia). now rewrite N.
  Qed.

  Lemma cval_head : (forall s ps g v, cval s ps g v -> exists c t, s = c :: t /\ char_is_whitespace c = false) /\
    (forall s ps g v, celems s ps g v -> exists c t, s = c :: t /\ char_is_whitespace c = false) /\
    (forall s ps g k v, cmemb s ps g k v -> exists c t, s = c :: t /\ char_is_whitespace c = false) /\
    (forall s ps g v, cmembs s ps g v -> exists c t, s = c :: t /\ char_is_whitespace c = false).
  Proof.
    apply cval_mind; intros; try (eexists; eexists; split; reflexivity).
    - destruct (number_head_char alpha alnum s ltac:(assumption)) as (c & t & -> & Hc). exists c, t. split; [reflexivity|]. unfold is_digit, char_is_whitespace in *. lia.
    - assumption.
    - destruct H as (c' & t & -> & Hc). eexists. eexists. split; [reflexivity | assumption].
    - assumption.
    - destruct H as (c' & t & -> & Hc). eexists. eexists. split; [reflexivity | assumption].
  Qed.

  Lemma nonspace_app s r : (exists c t, s = c :: t /\ char_is_whitespace c = false) -> nonspace (s ++ r).
  Proof. intros (c & t & -> & H). exact H. Qed.

  Ltac word := intros qs Hqs; apply lexes_one; [reflexivity | exact Hqs].

  Lemma cval_lexes :
    (forall s ps g v, cval s ps g v -> forall r, closer r -> lexes r s ps) /\
    (forall s ps g v, celems s ps g v -> forall r, closer r -> lexes r s ps) /\
    (forall s ps g k v, cmemb s ps g k v -> forall r, closer r -> lexes r s ps) /\
    (forall s ps g v, cmembs s ps g v -> forall r, closer r -> lexes r s ps).
  Proof.
    destruct cval_head as (Hv & He & Hm & Hms).
    assert (Sp : forall r, closer r -> nonspace r) by exact (closer_space alpha alnum).
    assert (Pn : forall c k r, punctuation c = Some k -> lexes r [c] [(Some k, [c])]).
    { intros c k r E. assert (C : c = 123%Z \/ c = 125%Z \/ c = 91%Z \/ c = 93%Z \/ c = 44%Z \/ c = 58%Z) by (unfold punctuation in E; destruct (Z.eqb_spec c 123), (Z.eqb_spec c 125), (Z.eqb_spec c 91), (Z.eqb_spec c 93), (Z.eqb_spec c 44), (Z.eqb_spec c 58); tauto || discriminate).
      apply lexes_one. destruct C as [-> | [-> | [-> | [-> | [-> | ->]]]]]; injection E as <-; reflexivity. }
    assert (Bare : forall s ps r, lexes r s ps -> lexes r (s ++ []) (ps ++ [])) by (intros s ps r H; now rewrite !app_nil_r).
    apply cval_mind.
    - intros w W r Cr. apply lexes_tok; [|assumption | now apply Sp]. apply (lexes_one 110 (lit "ull")). reflexivity.
    - intros r Cr. apply (lexes_one 116 (lit "rue")). reflexivity.
    - intros w W r Cr. apply lexes_tok; [|assumption | now apply Sp]. apply (lexes_one 102 (lit "alse")). reflexivity.
    - intros s J r Cr. apply lexes_number; [assumption | exact (closer_follow r Cr)].
    - intros b [b' K _ _] r Cr. now apply lexes_string.
    - intros w1 w2 W1 W2 r Cr. rewrite app_assoc. apply lexes_cat; apply lexes_tok; try assumption; try (now apply Pn); [reflexivity | now apply Sp].
    - intros w1 s ps gs l w2 W1 C IH W2 r Cr. rewrite app_assoc. apply lexes_cat; [|apply lexes_cat].
      + apply lexes_tok; [now apply Pn | assumption|]. rewrite <- app_assoc. apply nonspace_app. exact (He _ _ _ _ C).
      + apply IH. cbn. now right; left.
      + apply lexes_tok; [now apply Pn | assumption | now apply Sp].
    - intros w1 w2 W1 W2 r Cr. rewrite app_assoc. apply lexes_cat; apply lexes_tok; try assumption; try (now apply Pn); [reflexivity | now apply Sp].
    - intros w1 s ps gs l w2 W1 C IH W2 r Cr. rewrite app_assoc. apply lexes_cat; [|apply lexes_cat].
      + apply lexes_tok; [now apply Pn | assumption|]. rewrite <- app_assoc. apply nonspace_app. exact (Hms _ _ _ _ C).
      + apply IH. cbn. now right; right; left.
      + apply lexes_tok; [now apply Pn | assumption | now apply Sp].
    - intros s ps g v _ IH r Cr. now apply IH.
    - intros s ps g v w r0 qs gs l C IH W Cl IHl r Cr. apply lexes_cat; [apply IH; cbn; now left|]. rewrite app_assoc. apply lexes_cat; [|now apply IHl]. apply lexes_tok; [now apply Pn | assumption|]. apply nonspace_app. exact (He _ _ _ _ Cl).
    - intros k w1 w2 s ps g v [b K _ _] W1 W2 C IH r Cr. rewrite app_assoc. apply lexes_cat; [apply lexes_tok; [now apply lexes_string | assumption | reflexivity]|]. rewrite app_assoc. apply lexes_cat; [|now apply IH]. apply lexes_tok; [now apply Pn | assumption|]. apply nonspace_app. exact (Hv _ _ _ _ C).
    - intros s ps g k v _ IH r Cr. now apply IH.
    - intros s ps g k v w r0 qs gs l C IH W Cl IHl r Cr. apply lexes_cat; [apply IH; cbn; now left|]. rewrite app_assoc. apply lexes_cat; [|now apply IHl]. apply lexes_tok; [now apply Pn | assumption|]. apply nonspace_app. exact (Hms _ _ _ _ Cl).
  Qed.

  Lemma standard_unique cs p1 : pieces_of cs p1 -> forall p2, pieces_of cs p2 -> p1 = p2.
  Proof.
    intros H. induction H as [| c r k s r' ps O E N _ IH]; intros p2 H2; inversion H2 as [| c2 r2 k2 s2 r2' ps2 O2 E2 N2 P2]; subst; [reflexivity|].
    assert (D : forall k s r', piece_ok alpha alnum standard c r k s r' -> (k, s, r') = lex1 alpha alnum standard c r) by (intros k0 s0 r0 [(H & _) | [(H & _) | (_ & _ & H)]]; [rewrite andb_false_r in H; discriminate | rewrite andb_false_r in H; discriminate | assumption]).
    apply D in O, O2. rewrite <- O2 in O. injection O as -> <- ->. f_equal. now apply IH.
  Qed.

  Lemma cval_root s ps g v : cval s ps g v -> Forall is_scalar s -> (Z.of_nat (length (encode s)) < 2 ^ 32)%Z -> exists errs, json_parse alpha alnum standard (encode s) None = Some (mk KRoot [g], errs).
  Proof.
    intros C Sc L. assert (Hs : serves (flat_source (encode s)) (encode s)) by (apply flat_serves; now exists s). destruct (json_lex_pieces alpha alnum _ _ standard s Hs eq_refl Sc) as (ps' & P & T & E).
    assert (ps' = ps) as ->. { apply (standard_unique s); [assumption|]. pose proof (proj1 cval_lexes _ _ _ _ C [] I [] (PONil _ _ _)) as P2. now rewrite !app_nil_r in P2. }
    assert (O : in_order 0 (spans 0 ps ++ [eof_at (length (encode s))]) (length (encode s))). { apply (order_app _ 0 _ (length (encode s))); [|cbn; lia]. rewrite <- T at 1. apply spans_order. }
    apply (order_sum alpha alnum) in O as (_ & O1 & O2). unfold json_parse. rewrite E. set (toks := spans 0 ps ++ [eof_at (length (encode s))]) in *.
    assert (Hf : lengths_fit toks). { unfold lengths_fit. revert O2. apply Forall_impl. intros t Ht. lia. }
    assert (Hsum : (Z.of_nat (list_sum (map (fun t => snd (tok_yield t)) toks)) < 2 ^ 32)%Z) by lia.
    destruct (cval_begins _ _ _ _ C) as (k & x & (y & q & Eq) & Ik & _). assert (Ht : exists e rr, toks = Token k 0 e :: rr) by (unfold toks; rewrite Eq; eexists; eexists; reflexivity). destruct Ht as (e & rr & Ht).
    unfold run_parser, ps_new. set (s0 := PState toks 0 [] 0 [] (length (encode s)) None).
    assert (S0 : skip_trivia ignored s0 = s0). { unfold skip_trivia. destruct (length (ps_toks s0) - ps_index s0) as [| m]; [reflexivity|]. cbn [skip_trivia_loop]. unfold ps_current. cbn [s0 ps_toks ps_index]. rewrite Ht. cbn [nth_error tk_kind]. now rewrite Ik. }
    rewrite S0. assert (Ok0 : ok toks s0). { split; [split; [reflexivity|]; split; [cbn; lia|]; split; [constructor|]; split; [reflexivity | intros _; reflexivity]|]. split; [unfold settled, to_come; cbn [s0 ps_toks ps_index]; rewrite Ht; exact Ik | reflexivity]. }
    assert (Lt : length ps < S (length (ps_toks s0))). { cbn [s0 ps_toks]. unfold toks. rewrite app_length, (spans_length ps) by exact (proj1 cval_some _ _ _ _ C). lia. }
    destruct (proj1 (cval_parse standard toks Hf Hsum) _ _ _ _ C _ Lt s0 0 [eof_at (length (encode s))] Ok0) as (s1 & -> & O' & R & l & Ls & Ml); [reflexivity | reflexivity|].
    rewrite (skip_rest s1 (proj1 (proj2 O'))). cbn [s0 ps_sink app] in Ls. unfold finish_at. cbn [checkpoint snd s0 ps_sink length]. rewrite Ls. change (length l <? 0) with false. cbv iota. cbn [skipn]. rewrite Ml.
    assert (N : new_node KRoot [g] = Some (mk KRoot [g])).
    { destruct O' as ((Tk & Ix & Bt & Wd & Yd) & _). unfold new_node. unfold sink_trees in *. rewrite Ls, Ml in Bt, Wd. rewrite sum_len_width by assumption.
      assert (F : list_sum (map (fun t => snd (tok_yield t)) (firstn (ps_index s1) toks)) <= list_sum (map (fun t => snd (tok_yield t)) toks)) by (rewrite <- (firstn_skipn (ps_index s1) toks) at 2; rewrite map_app, list_sum_app; lia).
      unfold fits_u32. destruct (N.ltb_spec (N.of_nat (list_sum (map width [g]))) 4294967296); [unfold mk; now rewrite sum_len_width|]. exfalso. clear - Wd F Hsum H. lia. }
    rewrite N. eexists. reflexivity.
  Qed.
End Lexes.

(** ** The builder reads these trees *)
Lemma scalars_by cs : forallb is_scalarb cs = true -> Forall is_scalar cs.
Proof. intros H. apply Forall_forall. intros c Hc. rewrite forallb_forall in H. apply is_scalarb_spec. now apply H. Qed.

Lemma cval_scalar : (forall s ps g v, cval s ps g v -> Forall is_scalar s /\ glen g = length (encode s)) /\
  (forall s ps gs l, celems s ps gs l -> Forall is_scalar s /\ sum_len gs = length (encode s)) /\
  (forall s ps g k v, cmemb s ps g k v -> Forall is_scalar s /\ glen g = length (encode s)) /\
  (forall s ps gs l, cmembs s ps gs l -> Forall is_scalar s /\ sum_len gs = length (encode s)).
Proof.
  assert (W : forall w, ws w -> Forall is_scalar w) by (intros w; apply Forall_impl; unfold is_ws, is_scalar; lia).
  assert (A : forall a b, sum_len (a ++ b) = sum_len a + sum_len b) by (induction a; intros b; cbn; [reflexivity | rewrite IHa; lia]).
  assert (L : forall k x w, sum_len (leaves (tok k x w)) = length (encode (x ++ w))) by (intros k x w; rewrite encode_app, app_length; destruct w; cbn; lia).
  assert (Q : forall b, Forall is_scalar b -> Forall is_scalar (quoted b)) by (intros b H; unfold quoted; rewrite !Forall_app; split; [apply scalars_by; reflexivity|]; split; [assumption | apply scalars_by; reflexivity]).
  assert (P : forall s, forallb is_scalarb s = true -> Forall is_scalar s) by exact scalars_by.
  assert (Nu : forall s, jnumber s -> Forall is_scalar s).
  { assert (D : forall r, Forall is_digit r -> Forall is_scalar r) by (intros r; apply Forall_impl; unfold is_digit, is_scalar; lia).
    intros s [minus i f e Hm Hi Hf He]. rewrite !Forall_app. split; [destruct Hm as [-> | ->]; [constructor | now apply P]|]. split; [destruct Hi; constructor; [unfold is_scalar; lia | constructor | unfold is_scalar; lia | now apply D]|].
    split; [destruct Hf; [constructor|]; constructor; [unfold is_scalar; lia|]; apply D; now constructor|]. destruct He as [| x sign d t Hx Hsg Hd Ht]; [constructor|]. constructor; [unfold is_scalar; lia|]. apply Forall_app. split; [destruct Hsg as [-> | [-> | ->]]; [constructor | now apply P | now apply P]|]. apply D. now constructor. }
  apply cval_mind; intros; unfold mk; cbn [glen sum_len]; rewrite ?A, ?L, ?encode_app, ?app_length in *; rewrite ?Forall_app.
  - split; [split; [now apply P | now apply W] | reflexivity].
  - split; [now apply P | reflexivity].
  - split; [split; [now apply P | now apply W] | reflexivity].
  - split; [now apply Nu | cbn; lia].
  - destruct c. split; [now apply Q | cbn; lia].
  - split; [|lia]. split; [now apply P|]. split; [now apply W|]. split; [now apply P | now apply W].
  - destruct H as [X1 X2]. split; [|lia]. split; [now apply P|]. split; [now apply W|]. split; [assumption|]. split; [now apply P | now apply W].
  - split; [|lia]. split; [now apply P|]. split; [now apply W|]. split; [now apply P | now apply W].
  - destruct H as [X1 X2]. split; [|lia]. split; [now apply P|]. split; [now apply W|]. split; [assumption|]. split; [now apply P | now apply W].
  - destruct H as [X1 X2]. split; [assumption | lia].
  - destruct H as [X1 X2], H0 as [X3 X4]. split; [|lia]. split; [assumption|]. split; [now apply P|]. split; [now apply W | assumption].
  - destruct c, H as [X1 X2]. split; [|cbn [sum_len]; lia]. split; [now apply Q|]. split; [now apply W|]. split; [now apply P|]. split; [now apply W | assumption].
  - destruct H as [X1 X2]. split; [assumption | lia].
  - destruct H as [X1 X2], H0 as [X3 X4]. split; [|lia]. split; [assumption|]. split; [now apply P|]. split; [now apply W | assumption].
Qed.

Lemma text_here c1 s c2 : Forall is_scalar (c1 ++ s ++ c2) -> flat_text_in (encode (c1 ++ s ++ c2)) (length (encode c1)) (length (encode c1) + length (encode s)) = encode s /\
  substr (encode (c1 ++ s ++ c2)) (length (encode c1)) (length (encode c1) + length (encode s)) = encode s.
Proof.
  intros H. assert (Sub : substr (encode (c1 ++ s ++ c2)) (length (encode c1)) (length (encode c1) + length (encode s)) = encode s).
  { unfold substr. rewrite !encode_app, skipn_app, skipn_all, Nat.sub_diag. cbn [skipn app]. replace (length (encode c1) + length (encode s) - length (encode c1)) with (length (encode s)) by lia. now rewrite firstn_app, firstn_all, Nat.sub_diag, firstn_O, app_nil_r. }
  split; [|assumption]. unfold flat_text_in, str_get. apply Forall_app in H as [H1 H2]. assert (H3 := H2). apply Forall_app in H3 as [_ H3].
  rewrite (boundary_of_split c1 (s ++ c2) H2). assert (B : is_boundary (encode (c1 ++ s ++ c2)) (length (encode c1) + length (encode s)) = true).
  { pose proof (boundary_of_split (c1 ++ s) c2 H3) as B. rewrite <- app_assoc in B. rewrite (encode_app c1 s), app_length in B. exact B. }
  rewrite B, Sub. assert (length (encode c1) <=? length (encode c1) + length (encode s) = true) as -> by (apply Nat.leb_le; lia).
  assert (length (encode c1) + length (encode s) <=? length (encode (c1 ++ s ++ c2)) = true) as -> by (apply Nat.leb_le; rewrite !encode_app, !app_length; lia). reflexivity.
Qed.

Lemma no_quote_byte c : is_scalar c -> c <> 34%Z -> ~ In 34%Z (encode_char c).
Proof.
  intros H N. unfold is_scalar, encode_char in *. assert (0 <= c / 64 /\ 0 <= c mod 64 /\ 0 <= c / 4096 /\ 0 <= (c / 64) mod 64 /\ 0 <= c / 262144 /\ 0 <= (c / 4096) mod 64)%Z as (D1 & D2 & D3 & D4 & D5 & D6).
  { split; [apply Z.div_pos; lia|]. split; [apply Z.mod_pos_bound; lia|]. split; [apply Z.div_pos; lia|]. split; [apply Z.mod_pos_bound; lia|]. split; [apply Z.div_pos; lia|]. apply Z.mod_pos_bound; lia. }
  destruct (c <? 128)%Z; [|destruct (c <? 2048)%Z; [|destruct (c <? 65536)%Z]]; cbn [In]; lia.
Qed.
Lemma trim_none s : match s with [] => True | c :: _ => c <> 34%Z end -> trim_start s = s.
Proof. destruct s as [| c r]; [reflexivity|]. intros H. cbn [trim_start]. destruct (Z.eqb_spec c 34); [contradiction | reflexivity]. Qed.

Lemma trim_quoted b : ckey b -> trim_quotes (encode (quoted b)) = encode b.
Proof.
  intros [b' K N Sc]. unfold quoted. rewrite !encode_app. change (encode (lit """")) with [34%Z]. cbn [app]. unfold trim_quotes. cbn [trim_start]. change (34 =? 34)%Z with true. cbv iota.
  destruct b' as [| c r]; [reflexivity|].
  assert (H1 : trim_start (encode (c :: r) ++ [34%Z]) = encode (c :: r) ++ [34%Z]).
  { apply trim_none. cbn [encode]. rewrite <- app_assoc. inversion Sc as [| ? ? Sc1 _]; subst. assert (Nc : c <> 34%Z) by (inversion K; subst; [assumption | lia]). pose proof (no_quote_byte c Sc1 Nc) as Nq. pose proof (encode_char_length c) as El. pose proof (char_len_pos c). destruct (encode_char c) as [| y e]; [cbn in El; lia|]. cbn [app]. intros ->. apply Nq. now left. }
  rewrite H1, rev_app_distr. cbn [rev app trim_start]. change (34 =? 34)%Z with true. cbv iota.
  assert (H2 : trim_start (rev (encode (c :: r))) = rev (encode (c :: r))).
  { apply trim_none. destruct (exists_last (l := c :: r) ltac:(discriminate)) as (q & y & E). rewrite E in *. rewrite last_last in N. apply Forall_app in Sc as [_ Sc]. inversion Sc as [| ? ? Sy _]; subst. rewrite encode_app, rev_app_distr. cbn [encode]. rewrite app_nil_r.
    pose proof (no_quote_byte y Sy N) as Nq. pose proof (encode_char_length y) as El. pose proof (char_len_pos y). destruct (encode_char y) as [| z e] using rev_ind; [cbn in El; lia|]. rewrite rev_app_distr. cbn [rev app]. intros ->. apply Nq. apply in_or_app. right. now left. }
  now rewrite H2, rev_involutive.
Qed.

Section Lists.
  Variable (F : Type) (parse_f64 : str -> option F) (text : str).
  Notation denotes := (denotes F parse_f64).
  Notation placed := (placed F parse_f64 text).
  Definition same_field (f : str * span * ast F * span) (d : list Z * json) : Prop := fst (fst (fst f)) = encode (fst d) /\ denotes (snd (fst f)) (snd d).
  Definition placed_field (f : str * span * ast F * span) : Prop :=
    at_span text (snd (fst (fst f))) (lit """" ++ fst (fst (fst f)) ++ lit """") /\ in_sequence (fst (snd f)) [snd (fst (fst f)); span_of F (snd (fst f))] (snd (snd f)) /\ placed (snd (fst f)).

  Lemma denotes_array l s m : denotes (AArray l s) (JArray m) <-> Forall2 denotes l m.
  Proof.
    cbn [JsonAstSpec.denotes]. revert m. induction l as [| a l IH]; intros [| v m].
    - split; [constructor | auto].
    - split; [contradiction | intros H; inversion H].
    - split; [contradiction | intros H; inversion H].
    - split; [intros [H1 H2]; constructor; [assumption | now apply IH] | intros H; inversion H; subst; split; [assumption | now apply IH]].
  Qed.
  Lemma denotes_object l s m : denotes (AObject l s) (JObject m) <-> Forall2 same_field l m.
  Proof.
    cbn [JsonAstSpec.denotes]. revert m. induction l as [| [[[k ks] a] fs] l IH]; intros [| [d v] m].
    - split; [constructor | auto].
    - split; [contradiction | intros H; inversion H].
    - split; [contradiction | intros H; inversion H].
    - split; [intros [H1 [H2 H3]]; constructor; [split; assumption | now apply IH] | intros H; inversion H as [| ? ? ? ? [H1 H2] H3]; subst; split; [assumption|]; split; [assumption | now apply IH]].
  Qed.
  Lemma placed_array l s : placed (AArray l s) <-> encloses text (lit "[") s (map (span_of F) l) /\ Forall placed l.
  Proof.
    cbn [JsonAstSpec.placed]. apply and_iff_compat_l. induction l as [| a l IH]; [split; [constructor | auto]|]. split; [intros [H1 H2]; constructor; [assumption | now apply IH] | intros H; inversion H; subst; split; [assumption | now apply IH]].
  Qed.
  Lemma placed_object l s : placed (AObject l s) <-> encloses text (lit "{") s (map snd l) /\ Forall placed_field l.
  Proof.
    cbn [JsonAstSpec.placed]. apply and_iff_compat_l. induction l as [| [[[k ks] a] fs] l IH]; [split; [constructor | auto]|]. split; [intros (H1 & H2 & H3 & H4); constructor; [split; [assumption | split; assumption] | now apply IH] | intros H; inversion H as [| ? ? (H1 & H2 & H3) H4]; subst; split; [assumption|]; split; [assumption|]; split; [assumption | now apply IH]].
  Qed.
End Lists.

Lemma ws_ascii w : ws w -> encode w = w.
Proof. intros H. apply encode_ascii. revert H. apply Forall_impl. unfold is_ws. lia. Qed.
Lemma number_ascii s : jnumber s -> encode s = s.
Proof.
  intros H. apply encode_ascii. assert (D : forall r, Forall is_digit r -> ascii r) by (intros r; apply Forall_impl; unfold is_digit; lia).
  destruct H as [minus i f e Hm Hi Hf He]. unfold ascii. rewrite !Forall_app. split; [destruct Hm as [-> | ->]; [constructor | constructor; [lia | constructor]]|].
  split; [destruct Hi; constructor; [lia | constructor | lia | now apply D]|]. split; [destruct Hf; [constructor|]; constructor; [lia|]; apply D; now constructor|].
  destruct He as [| x sign d t Hx Hs Hd Ht]; [constructor|]. constructor; [lia|]. apply Forall_app. split; [destruct Hs as [-> | [-> | ->]]; [constructor | constructor; [lia | constructor] | constructor; [lia | constructor]]|]. apply D. now constructor.
Qed.

Section Builds.
  Variable (F : Type) (parse_f64 : str -> option F).
  Hypothesis total : forall s, jnumber s -> exists f, parse_f64 s = Some f.
  Notation denotes := (denotes F parse_f64).
  Notation placed := (placed F parse_f64).
  Notation bv text := (build_value F parse_f64 text).

  Definition len (s : list Z) : nat := length (encode s).
  Lemma len_app a b : len (a ++ b) = len a + len b.
  Proof. unfold len. now rewrite encode_app, app_length. Qed.

  Lemma elements_leaves (B : green -> nat -> answer (ast F)) k x w gs off : build_elements F B (leaves (tok k x w) ++ gs) off = build_elements F B gs (off + len (x ++ w)).
  Proof. rewrite len_app, Nat.add_assoc. destruct w; cbn [tok wsp leaves map app build_elements leafp fst snd]; unfold len; [cbn [encode length]; now rewrite Nat.add_0_r | reflexivity]. Qed.
  Lemma fields_leaves text (B : green -> nat -> answer (ast F)) k x w gs off : build_fields F text B (leaves (tok k x w) ++ gs) off = build_fields F text B gs (off + len (x ++ w)).
  Proof. rewrite len_app, Nat.add_assoc. destruct w; cbn [tok wsp leaves map app build_fields leafp fst snd]; unfold len; [cbn [encode length]; now rewrite Nat.add_0_r | reflexivity]. Qed.
  Lemma elements_tail (B : green -> nat -> answer (ast F)) k x w off : build_elements F B (leaves (tok k x w)) off = Ok [].
  Proof. destruct w; reflexivity. Qed.
  Lemma fields_tail text (B : green -> nat -> answer (ast F)) k x w off : build_fields F text B (leaves (tok k x w)) off = Ok [].
  Proof. destruct w; reflexivity. Qed.

  Lemma sequence_wider l : forall a b a' b', in_sequence a l b -> a' <= a -> b <= b' -> in_sequence a' l b'.
  Proof. induction l as [| s l IH]; intros a b a' b' H H1 H2; cbn [in_sequence] in *; [lia|]. destruct H as (A & B & C). split; [lia|]. split; [assumption|]. now apply (IH (snd s) b). Qed.

  Lemma at_here c1 s c2 : Forall is_scalar (c1 ++ s ++ c2) -> at_span (encode (c1 ++ s ++ c2)) (len c1, len c1 + len s) (encode s).
  Proof. intros H. split; [exact (proj2 (text_here c1 s c2 H))|]. cbn [fst snd]. unfold len. rewrite !encode_app, !app_length. lia. Qed.

  Lemma sum_app a b : sum_len (a ++ b) = sum_len a + sum_len b.
  Proof. induction a; cbn; [reflexivity | rewrite IHa; lia]. Qed.
  Lemma leaf_len k x w : sum_len (leaves (tok k x w)) = len (x ++ w).
  Proof. rewrite len_app. destruct w; cbn; unfold len; cbn [encode length]; lia. Qed.

  Definition P_val (s : list Z) (g : green) (v : json) : Prop := forall c1 c2, Forall is_scalar (c1 ++ s ++ c2) ->
    exists a, bv (encode (c1 ++ s ++ c2)) g (len c1) = Ok a /\ denotes a v /\ placed (encode (c1 ++ s ++ c2)) a /\ span_of F a = (len c1, len c1 + len s).
  Definition P_elems (s : list Z) (gs : list green) (m : list json) : Prop := forall c1 c2 k x w, Forall is_scalar (c1 ++ s ++ c2) -> let T := encode (c1 ++ s ++ c2) in
    exists l, build_elements F (bv T) (gs ++ leaves (tok k x w)) (len c1) = Ok l /\ Forall2 denotes l m /\ Forall (placed T) l /\ in_sequence (len c1) (map (span_of F) l) (len c1 + len s).
  Definition P_memb (s : list Z) (g : green) (k : list Z) (v : json) : Prop := forall c1 c2, Forall is_scalar (c1 ++ s ++ c2) -> let T := encode (c1 ++ s ++ c2) in
    exists f, (forall rest, build_fields F T (bv T) (g :: rest) (len c1) = match build_fields F T (bv T) rest (len c1 + len s) with Ok fs => Ok (f :: fs) | Err => Err end) /\
      same_field F parse_f64 f (k, v) /\ placed_field F parse_f64 T f /\ snd f = (len c1, len c1 + len s).
  Definition P_membs (s : list Z) (gs : list green) (m : list (list Z * json)) : Prop := forall c1 c2 k x w, Forall is_scalar (c1 ++ s ++ c2) -> let T := encode (c1 ++ s ++ c2) in
    exists l, build_fields F T (bv T) (gs ++ leaves (tok k x w)) (len c1) = Ok l /\ Forall2 (same_field F parse_f64) l m /\ Forall (placed_field F parse_f64 T) l /\ in_sequence (len c1) (map snd l) (len c1 + len s).

  Lemma value_node s ps g v : cval s ps g v -> exists k n ch, g = GNode k n ch /\ existsb (Nat.eqb k) [KElement; KValue; KObject; KArray; KString; KNumber; KBoolean; KNull] = true /\ existsb (Nat.eqb k) [KValue; KObject; KArray; KString; KNumber; KBoolean; KNull] = true.
  Proof. intros []; (eexists; eexists; eexists; split; [reflexivity | split; reflexivity]). Qed.

  Lemma elements_cons s ps g v c1 c2 rest a : cval s ps g v -> bv (encode (c1 ++ s ++ c2)) g (len c1) = Ok a ->
    build_elements F (bv (encode (c1 ++ s ++ c2))) (g :: rest) (len c1) = match build_elements F (bv (encode (c1 ++ s ++ c2))) rest (len c1 + len s) with Ok vs => Ok (a :: vs) | Err => Err end.
  Proof.
    intros C E. pose proof (proj2 (proj1 cval_scalar _ _ _ _ C)) as L. destruct (value_node _ _ _ _ C) as (k & n & ch & -> & K & _). cbn [glen] in L. subst n. cbn [build_elements]. rewrite K, E. reflexivity.
  Qed.

  Lemma cval_builds :
    (forall s ps g v, cval s ps g v -> P_val s g v) /\ (forall s ps gs m, celems s ps gs m -> P_elems s gs m) /\
    (forall s ps g k v, cmemb s ps g k v -> P_memb s g k v) /\ (forall s ps gs m, cmembs s ps gs m -> P_membs s gs m).
  Proof.
    assert (Enc : forall c1 o t c2, Forall is_scalar (c1 ++ (o ++ t) ++ c2) -> ascii o -> exists t', at_span (encode (c1 ++ (o ++ t) ++ c2)) (len c1, len c1 + len (o ++ t)) (o ++ t')).
    { intros c1 o t c2 H A. exists (encode t). pose proof (at_here c1 (o ++ t) c2 H) as E. rewrite (encode_app o t), (encode_ascii o A) in E. exact E. }
    apply cval_mind.
    - intros w W c1 c2 H. exists (ANull (len c1, len c1 + len (lit "null" ++ w))). unfold mk. cbn [build_value Nat.eqb orb]. rewrite leaf_len. split; [reflexivity|]. split; [exact I|]. split; [|reflexivity].
      cbn [JsonAstSpec.placed]. exists w. split; [assumption|]. pose proof (at_here c1 (lit "null" ++ w) c2 H) as A. rewrite (encode_app (lit "null")) , (ws_ascii w W) in A. exact A.
    - intros c1 c2 H. exists (ABool true (len c1, len c1 + len (lit "true"))). unfold mk. rewrite leaf_len, app_nil_r. cbn [build_value Nat.eqb orb]. change (KBoolean =? KObject) with false. change (KBoolean =? KArray) with false. change (KBoolean =? KString) with false. change (KBoolean =? KNumber) with false. change (KBoolean =? KBoolean) with true. cbv iota.
      unfold len. rewrite (proj1 (text_here c1 (lit "true") c2 H)). split; [reflexivity|]. split; [reflexivity|]. split; [|reflexivity]. exists []. split; [constructor|]. exact (at_here c1 (lit "true") c2 H).
    - intros w W c1 c2 H. exists (ABool false (len c1, len c1 + len (lit "false" ++ w))). unfold mk. rewrite leaf_len. cbn [build_value Nat.eqb orb]. change (KBoolean =? KObject) with false. change (KBoolean =? KArray) with false. change (KBoolean =? KString) with false. change (KBoolean =? KNumber) with false. change (KBoolean =? KBoolean) with true. cbv iota.
      pose proof (at_here c1 (lit "false" ++ w) c2 H) as A. pose proof (proj1 (text_here c1 (lit "false" ++ w) c2 H)) as Tx. fold (len c1) (len (lit "false" ++ w)) in Tx. rewrite Tx. assert (Ew : encode (lit "false" ++ w) = lit "false" ++ w) by (rewrite encode_app, (ws_ascii w W); reflexivity). rewrite Ew in *.
      split; [destruct (list_eq_dec Z.eq_dec (lit "false" ++ w) (lit "true")) as [E | _]; [discriminate E | reflexivity]|]. split; [reflexivity|]. split; [|reflexivity]. exists w. split; assumption.
    - intros s J c1 c2 H. destruct (total s J) as (f & Ef). exists (ANumber f (len c1, len c1 + len s)). unfold mk. rewrite leaf_len, app_nil_r. cbn [build_value]. change (KNumber =? KObject) with false. change (KNumber =? KArray) with false. change (KNumber =? KString) with false. change (KNumber =? KNumber) with true. cbv iota.
      pose proof (number_ascii s J) as Ea. unfold len. rewrite (proj1 (text_here c1 s c2 H)), Ea, Ef. split; [reflexivity|]. split; [cbn; now rewrite Ea|]. split; [|reflexivity]. exists s. split; [|assumption]. pose proof (at_here c1 s c2 H) as A. unfold len in A. rewrite Ea in A. exact A.
    - intros b K c1 c2 H. exists (AString (encode b) (len c1, len c1 + len (quoted b))). unfold mk. rewrite leaf_len, app_nil_r. cbn [build_value]. change (KString =? KObject) with false. change (KString =? KArray) with false. change (KString =? KString) with true. cbv iota.
      pose proof (proj1 (text_here c1 (quoted b) c2 H)) as Et. unfold len. rewrite Et, (trim_quoted b K). split; [reflexivity|]. split; [reflexivity|]. split; [|reflexivity]. pose proof (at_here c1 (quoted b) c2 H) as A. cbn [JsonAstSpec.placed]. replace (lit """" ++ encode b ++ lit """") with (encode (quoted b)); [exact A|]. unfold quoted. now rewrite !encode_app.
    - intros w1 w2 W1 W2 c1 c2 H. set (s := lit "[" ++ w1 ++ lit "]" ++ w2) in *. exists (AArray [] (len c1, len c1 + len s)). unfold mk. cbn [build_value]. change (KArray =? KObject) with false. change (KArray =? KArray) with true. cbv iota. rewrite elements_leaves, elements_tail.
      split; [do 3 f_equal; rewrite sum_app, !leaf_len; unfold s; rewrite !len_app; lia|]. split; [exact I|]. split; [|reflexivity]. apply placed_array. split; [|constructor]. split; [apply Enc; [exact H | repeat constructor; lia]|]. cbn [map in_sequence fst snd]. unfold s. rewrite len_app. change (len (lit "[")) with 1. lia.
    - intros w1 s ps gs l w2 W1 C IH W2 c1 c2 H. set (t := lit "[" ++ w1 ++ s ++ lit "]" ++ w2) in *. assert (Et : c1 ++ t ++ c2 = (c1 ++ lit "[" ++ w1) ++ s ++ (lit "]" ++ w2) ++ c2) by (unfold t; now rewrite <- !app_assoc).
      assert (H' := H). rewrite Et in H'. destruct (IH (c1 ++ lit "[" ++ w1) ((lit "]" ++ w2) ++ c2) KRBracket (lit "]") w2 H') as (l' & Eb & Dn & Pl & Sq). cbv zeta in Eb. rewrite <- Et in Eb, Pl. exists (AArray l' (len c1, len c1 + len t)).
      unfold mk. cbn [build_value]. change (KArray =? KObject) with false. change (KArray =? KArray) with true. cbv iota. rewrite elements_leaves. replace (len c1 + len (lit "[" ++ w1)) with (len (c1 ++ lit "[" ++ w1)) by (rewrite !len_app; lia). rewrite Eb.
      split; [do 3 f_equal; rewrite !sum_app, !leaf_len, (proj2 (proj1 (proj2 cval_scalar) _ _ _ _ C)); unfold t; rewrite !len_app; unfold len; lia|]. split; [now apply denotes_array|]. split; [|reflexivity]. apply placed_array. split; [|assumption].
      split; [apply Enc; [exact H | repeat constructor; lia]|]. cbn [fst snd]. apply (sequence_wider _ _ _ _ _ Sq); [rewrite !len_app; change (len (lit "[")) with 1; lia | unfold t; rewrite !len_app; lia].
    - intros w1 w2 W1 W2 c1 c2 H. set (s := lit "{" ++ w1 ++ lit "}" ++ w2) in *. exists (AObject [] (len c1, len c1 + len s)). unfold mk. cbn [build_value]. change (KObject =? KObject) with true. cbv iota. rewrite fields_leaves, fields_tail.
      split; [do 3 f_equal; rewrite sum_app, !leaf_len; unfold s; rewrite !len_app; lia|]. split; [exact I|]. split; [|reflexivity]. apply placed_object. split; [|constructor]. split; [apply Enc; [exact H | repeat constructor; lia]|]. cbn [map in_sequence fst snd]. unfold s. rewrite len_app. change (len (lit "{")) with 1. lia.
    - intros w1 s ps gs l w2 W1 C IH W2 c1 c2 H. set (t := lit "{" ++ w1 ++ s ++ lit "}" ++ w2) in *. assert (Et : c1 ++ t ++ c2 = (c1 ++ lit "{" ++ w1) ++ s ++ (lit "}" ++ w2) ++ c2) by (unfold t; now rewrite <- !app_assoc).
      assert (H' := H). rewrite Et in H'. destruct (IH (c1 ++ lit "{" ++ w1) ((lit "}" ++ w2) ++ c2) KRBrace (lit "}") w2 H') as (l' & Eb & Dn & Pl & Sq). cbv zeta in Eb. rewrite <- Et in Eb, Pl. exists (AObject l' (len c1, len c1 + len t)).
      unfold mk. cbn [build_value]. change (KObject =? KObject) with true. cbv iota. rewrite fields_leaves. replace (len c1 + len (lit "{" ++ w1)) with (len (c1 ++ lit "{" ++ w1)) by (rewrite !len_app; lia). rewrite Eb.
      split; [do 3 f_equal; rewrite !sum_app, !leaf_len, (proj2 (proj2 (proj2 (proj2 cval_scalar)) _ _ _ _ C)); unfold t; rewrite !len_app; unfold len; lia|]. split; [now apply denotes_object|]. split; [|reflexivity]. apply placed_object. split; [|assumption].
      split; [apply Enc; [exact H | repeat constructor; lia]|]. cbn [fst snd]. apply (sequence_wider _ _ _ _ _ Sq); [rewrite !len_app; change (len (lit "{")) with 1; lia | unfold t; rewrite !len_app; lia].
    - intros s ps g v C IH c1 c2 k x w H T. destruct (IH c1 c2 H) as (a & Eb & Dn & Pl & Sp). exists [a]. unfold T. cbn [app]. rewrite (elements_cons _ _ _ _ _ _ _ _ C Eb), elements_tail. split; [reflexivity|]. split; [constructor; [assumption | constructor]|]. split; [constructor; [assumption | constructor]|]. cbn [map in_sequence]. rewrite Sp. cbn [fst snd]. lia.
    - intros s ps g v w r qs gs l C IH W Cl IHl c1 c2 k x w' H T. set (t := s ++ lit "," ++ w ++ r) in *. assert (E1 : c1 ++ t ++ c2 = c1 ++ s ++ (lit "," ++ w ++ r) ++ c2) by (unfold t; now rewrite <- !app_assoc). assert (E2 : c1 ++ t ++ c2 = (c1 ++ s ++ lit "," ++ w) ++ r ++ c2) by (unfold t; now rewrite <- !app_assoc).
      assert (H1 := H). rewrite E1 in H1. assert (H2 := H). rewrite E2 in H2. destruct (IH c1 ((lit "," ++ w ++ r) ++ c2) H1) as (a & Eb & Dn & Pl & Sp). destruct (IHl (c1 ++ s ++ lit "," ++ w) c2 k x w' H2) as (l' & Eb2 & Dn2 & Pl2 & Sq2). cbv zeta in *. pose proof (elements_cons _ _ _ _ _ _ ((leaves (tok KComma (lit ",") w) ++ gs) ++ leaves (tok k x w')) _ C Eb) as Ec.
      rewrite <- E1 in Ec, Pl. rewrite <- E2 in Eb2, Pl2. exists (a :: l'). unfold T. cbn [app]. rewrite Ec, <- app_assoc, elements_leaves. replace (len c1 + len s + len (lit "," ++ w)) with (len (c1 ++ s ++ lit "," ++ w)) by (rewrite !len_app; lia). rewrite Eb2. split; [reflexivity|]. split; [now constructor|]. split; [now constructor|].
      cbn [map in_sequence]. rewrite Sp. cbn [fst snd]. split; [lia|]. split; [lia|]. apply (sequence_wider _ _ _ _ _ Sq2); [rewrite !len_app; lia | unfold t; rewrite !len_app; lia].
    - intros k w1 w2 s ps g v K W1 W2 C IH c1 c2 H T. set (t := quoted k ++ w1 ++ lit ":" ++ w2 ++ s) in *. assert (E1 : c1 ++ t ++ c2 = c1 ++ quoted k ++ (w1 ++ lit ":" ++ w2 ++ s) ++ c2) by (unfold t; now rewrite <- !app_assoc). assert (E2 : c1 ++ t ++ c2 = (c1 ++ quoted k ++ w1 ++ lit ":" ++ w2) ++ s ++ c2) by (unfold t; now rewrite <- !app_assoc).
      assert (H1 := H). rewrite E1 in H1. assert (H2 := H). rewrite E2 in H2. destruct (IH _ c2 H2) as (a & Eb & Dn & Pl & Sp). pose proof (text_here c1 (quoted k) ((w1 ++ lit ":" ++ w2 ++ s) ++ c2) H1) as (Tk & _). pose proof (at_here c1 (quoted k) ((w1 ++ lit ":" ++ w2 ++ s) ++ c2) H1) as Ak. rewrite <- E1 in Tk, Ak. fold (len c1) in Tk. rewrite <- E2 in Eb, Pl.
      pose proof (proj2 (proj1 cval_scalar _ _ _ _ C)) as Lg. destruct (value_node _ _ _ _ C) as (kg & n & ch & Eg & _ & Kg). set (p := len (c1 ++ quoted k ++ w1 ++ lit ":" ++ w2)) in *.
      exists (encode k, (len c1, len c1 + len (quoted k)), a, (len c1, len c1 + len t)). split.
      + intros rest. unfold mk. cbn [build_fields]. change (KEntry =? KEntry) with true. cbv iota. rewrite !sum_app, !leaf_len. cbn [sum_len]. rewrite Lg, Nat.add_0_r.
        replace (len c1 + (len (quoted k ++ w1) + (len (lit ":" ++ w2) + length (encode s)))) with (len c1 + len t) by (unfold t; rewrite !len_app; unfold len; lia).
        assert (Be : build_entry F T (bv T) (leaves (tok KStringLit (quoted k) w1) ++ leaves (tok KColon (lit ":") w2) ++ [g]) (len c1) false None None = Ok (encode k, (len c1, len c1 + len (quoted k)), a)).
        { assert (Last : forall off, off = p -> build_entry F T (bv T) [g] off true (Some (encode k, (len c1, len c1 + len (quoted k)))) None = Ok (encode k, (len c1, len c1 + len (quoted k)), a)).
          { intros off ->. rewrite Eg. cbn [build_entry]. rewrite Kg, <- Eg. unfold T. rewrite Eb. reflexivity. }
          assert (Mid : forall off, off + len (lit ":" ++ w2) = p -> build_entry F T (bv T) (leaves (tok KColon (lit ":") w2) ++ [g]) off false (Some (encode k, (len c1, len c1 + len (quoted k)))) None = Ok (encode k, (len c1, len c1 + len (quoted k)), a)).
          { intros off Ho. rewrite len_app in Ho. unfold tok, leaves. destruct w2; cbn [wsp map app leafp fst snd build_entry]; change (KColon =? KColon) with true; cbv iota; [|change (KWhitespace =? KColon) with false; cbn [negb andb]; cbv iota]; apply Last; unfold len in Ho; [cbn [encode length] in *; lia | lia]. }
          assert (Pe : len c1 + len (quoted k) + len w1 + len (lit ":" ++ w2) = p) by (unfold p; rewrite !len_app; lia).
          unfold tok at 1, leaves at 1. destruct w1; cbn [wsp map app leafp fst snd build_entry]; change (KStringLit =? KColon) with false; change (KStringLit =? KStringLit) with true; cbn [negb andb orb]; cbv iota; [|change (KWhitespace =? KColon) with false; change (KWhitespace =? KStringLit) with false; change (KWhitespace =? KBareKey) with false; cbn [negb andb orb]; cbv iota]; unfold T; rewrite Tk, (trim_quoted k K); apply Mid; unfold len in *; cbn [encode length] in *; lia. }
        rewrite Be. reflexivity.
      + split; [now split|]. split; [|reflexivity]. unfold placed_field. cbn [fst snd]. split; [replace (lit """" ++ encode k ++ lit """") with (encode (quoted k)) by (unfold quoted; now rewrite !encode_app); exact Ak|]. split; [|assumption].
        cbn [in_sequence]. rewrite Sp. cbn [fst snd]. unfold p, t. rewrite !len_app. lia.
    - intros s ps g k v C IH c1 c2 kk x w H T. destruct (IH c1 c2 H) as (f & Eb & Sf & Pf & Sp). exists [f]. cbv zeta in *. unfold T. cbn [app]. rewrite Eb, fields_tail. split; [reflexivity|]. split; [constructor; [assumption | constructor]|]. split; [constructor; [assumption | constructor]|]. cbn [map in_sequence]. rewrite Sp. cbn [fst snd]. lia.
    - intros s ps g k v w r qs gs l C IH W Cl IHl c1 c2 kk x w' H T. set (t := s ++ lit "," ++ w ++ r) in *. assert (E1 : c1 ++ t ++ c2 = c1 ++ s ++ (lit "," ++ w ++ r) ++ c2) by (unfold t; now rewrite <- !app_assoc). assert (E2 : c1 ++ t ++ c2 = (c1 ++ s ++ lit "," ++ w) ++ r ++ c2) by (unfold t; now rewrite <- !app_assoc).
      assert (H1 := H). rewrite E1 in H1. assert (H2 := H). rewrite E2 in H2. destruct (IH c1 ((lit "," ++ w ++ r) ++ c2) H1) as (f & Eb & Sf & Pf & Sp). destruct (IHl (c1 ++ s ++ lit "," ++ w) c2 kk x w' H2) as (l' & Eb2 & Dn2 & Pl2 & Sq2). cbv zeta in *. specialize (Eb ((leaves (tok KComma (lit ",") w) ++ gs) ++ leaves (tok kk x w'))).
      rewrite <- E1 in Eb, Pf. rewrite <- E2 in Eb2, Pl2. exists (f :: l'). unfold T. cbn [app]. rewrite Eb, <- app_assoc, fields_leaves. replace (len c1 + len s + len (lit "," ++ w)) with (len (c1 ++ s ++ lit "," ++ w)) by (rewrite !len_app; lia). rewrite Eb2. split; [reflexivity|]. split; [now constructor|]. split; [now constructor|].
      cbn [map in_sequence]. rewrite Sp. cbn [fst snd]. split; [lia|]. split; [lia|]. apply (sequence_wider _ _ _ _ _ Sq2); [rewrite !len_app; lia | unfold t; rewrite !len_app; lia].
  Qed.

  (** ** All together *)
  Lemma cval_value alpha alnum s ps g v : cval s ps g v -> (Z.of_nat (length (encode s)) < 2 ^ 32)%Z ->
    exists a, oak_json_parse alpha alnum parse_f64 (encode s) = Some (Ok a) /\ denotes a v /\ placed (encode s) a.
  Proof.
    intros C L. pose proof (proj1 (proj1 cval_scalar _ _ _ _ C)) as Sc. destruct (cval_root alpha alnum s ps g v C Sc L) as (errs & E). unfold oak_json_parse. rewrite E.
    destruct (proj1 cval_builds _ _ _ _ C [] []) as (a & Eb & Dn & Pl & _); [cbn [app]; now rewrite app_nil_r|]. cbn [app] in *. rewrite app_nil_r in *. exists a. split; [|now split]. f_equal. unfold build_root, mk. destruct (value_node _ _ _ _ C) as (k & n & ch & -> & _). exact Eb.
  Qed.
End Builds.
