(** JSON texts and the pieces the lexer cuts them into. *)
From Verif Require Import Base Utf8 ScanSpec SimdModel CursorModel CursorProofs LexModel LexSpec JsonSpec JsonModel JsonLangSpec JsonLexProofs.

Definition kp (ps : list piece) : list nat := flat_map (fun p => match fst p with Some k => if ignored k then [] else [k] | None => [] end) ps.
Lemma kp_app a b : kp (a ++ b) = kp a ++ kp b.
Proof. apply flat_map_app. Qed.
Lemma kinds_spans ps : forall off, kinds (spans off ps) = kp ps.
Proof.
  unfold kinds. induction ps as [| [k s] r IH]; intros off; [reflexivity|]. cbn [spans kp flat_map fst]. fold (kp r). destruct k as [k|]; [|apply IH]. cbn [app map filter tk_kind]. destruct (ignored k); cbn [negb app]; now rewrite IH.
Qed.
Lemma text_app a b : text_of_pieces (a ++ b) = text_of_pieces a ++ text_of_pieces b.
Proof. apply flat_map_app. Qed.

(** ** From texts to pieces *)
Section Forward.
  Variable (alpha alnum : Z -> bool) (cfg : json_config).
  Notation pieces_of := (pieces_of alpha alnum cfg).

  Definition closer (r : list Z) : Prop := match r with [] => True | c :: _ => In c (lit ",]}:") end.
  Definition follow (r : list Z) : Prop := match r with [] => True | c :: _ => is_ws c \/ In c (lit ",]}:") end.
  Lemma closer_follow r : closer r -> follow r.
  Proof. destruct r; [auto | now right]. Qed.
  Lemma closer_code r : closer r -> match r with [] => True | c :: _ => c = 44%Z \/ c = 93%Z \/ c = 125%Z \/ c = 58%Z end.
  Proof. destruct r as [| c r]; [auto|]. unfold closer. change (lit ",]}:") with [44; 93; 125; 58]%Z. cbn [In]. lia. Qed.
  Lemma follow_code r : follow r -> match r with [] => True | c :: _ => is_ws c \/ c = 44%Z \/ c = 93%Z \/ c = 125%Z \/ c = 58%Z end.
  Proof. destruct r as [| c r]; [auto|]. cbn [follow]. change (lit ",]}:") with [44; 93; 125; 58]%Z. cbn [In]. unfold is_ws. lia. Qed.

  Definition plain (p : piece) : Prop := match snd p with [] => True | c :: _ => (c =? 47)%Z = false /\ (c =? 39)%Z = false end.
  Definition sound_plain (p : piece) : Prop := well_formed p /\ plain p.

  (** [s] in front of [r] becomes pieces of kinds [ks]. *)
  Definition reads_as (r s : list Z) (ks : list nat) : Prop :=
    forall ps, pieces_of r ps -> exists ps', pieces_of (s ++ r) (ps' ++ ps) /\ text_of_pieces ps' = s /\ Forall sound_plain ps' /\ kp ps' = ks.

  Lemma reads_nil r : reads_as r [] [].
  Proof. intros ps H. exists []. split; [exact H|]. split; [reflexivity|]. split; [constructor | reflexivity]. Qed.
  Lemma reads_cat r a b ka kb : reads_as (b ++ r) a ka -> reads_as r b kb -> reads_as r (a ++ b) (ka ++ kb).
  Proof.
    intros Ha Hb ps H. destruct (Hb ps H) as (pb & Pb & Tb & Fb & Kb). destruct (Ha _ Pb) as (pa & Pa & Ta & Fa & Ka). exists (pa ++ pb). rewrite <- !app_assoc. split; [assumption|]. split; [now rewrite text_app, Ta, Tb|]. split; [now apply Forall_app | now rewrite kp_app, Ka, Kb].
  Qed.

  Lemma reads_one c t r k : lex1 alpha alnum cfg c (t ++ r) = (Some k, c :: t, r) -> (c =? 47)%Z = false -> (c =? 39)%Z = false -> well_formed (Some k, c :: t) -> reads_as r (c :: t) (if ignored k then [] else [k]).
  Proof.
    intros El E1 E2 W ps H. exists [(Some k, c :: t)]. split; [|split; [cbn; now rewrite app_nil_r|]; split; [constructor; [split; [assumption | now split] | constructor] | cbn; now rewrite app_nil_r]].
    apply (POCons alpha alnum cfg c (t ++ r) (Some k) (c :: t) r ps); [|reflexivity | discriminate | assumption]. right. right. rewrite El, E1, E2. now split.
  Qed.

  Lemma ws_space w : ws w -> Forall (fun c => char_is_whitespace c = true) w.
  Proof. apply Forall_impl. intros c H. unfold is_ws, char_is_whitespace in *. lia. Qed.

  Lemma reads_ws w r : ws w -> match r with [] => True | c :: _ => char_is_whitespace c = false end -> reads_as r w [].
  Proof.
    intros W Hr. destruct w as [| c t]; [apply reads_nil|]. apply (reads_one c t r KWhitespace).
    - inversion W; subst. unfold lex1. assert (((c =? 32) || (c =? 9) || (c =? 10) || (c =? 13))%Z = true) as -> by (unfold is_ws in *; lia).
      destruct (run_unique char_is_whitespace (c :: t) r (c :: t ++ r) eq_refl (ws_space _ W) Hr) as [<- <-]. reflexivity.
    - inversion W; subst. unfold is_ws in *. lia.
    - inversion W; subst. unfold is_ws in *. lia.
    - split; [intros _; exact W|]. split; discriminate.
  Qed.
  Lemma closer_space r : closer r -> match r with [] => True | c :: _ => char_is_whitespace c = false end.
  Proof. intros H. apply closer_code in H. destruct r as [| c r]; [exact I|]. destruct H as [-> | [-> | [-> | ->]]]; reflexivity. Qed.

  Lemma reads_punct c k r : punctuation c = Some k -> ignored k = false -> reads_as r [c] [k].
  Proof.
    intros E Ik. assert (C : c = 123%Z \/ c = 125%Z \/ c = 91%Z \/ c = 93%Z \/ c = 44%Z \/ c = 58%Z) by (unfold punctuation in E; destruct (Z.eqb_spec c 123), (Z.eqb_spec c 125), (Z.eqb_spec c 91), (Z.eqb_spec c 93), (Z.eqb_spec c 44), (Z.eqb_spec c 58); tauto || discriminate).
    replace [k] with (if ignored k then [] else [k]) by now rewrite Ik. apply (reads_one c [] r k).
    - destruct C as [-> | [-> | [-> | [-> | [-> | ->]]]]]; injection E as <-; reflexivity.
    - lia.
    - lia.
    - destruct C as [-> | [-> | [-> | [-> | [-> | ->]]]]]; injection E as <-; split; [discriminate | split; discriminate | discriminate | split; discriminate | discriminate | split; discriminate | discriminate | split; discriminate | discriminate | split; discriminate | discriminate | split; discriminate].
  Qed.

  Lemma reads_word r k s : In (k, s) [(KBooleanLit, lit "true"); (KBooleanLit, lit "false"); (KNullLit, lit "null")] -> reads_as r s [k].
  Proof.
    intros [E | [E | [E | []]]]; injection E as <- <-.
    - apply (reads_one 116 (lit "rue") r KBooleanLit); [reflexivity | reflexivity | reflexivity|]. split; [discriminate | split; discriminate].
    - apply (reads_one 102 (lit "alse") r KBooleanLit); [reflexivity | reflexivity | reflexivity|]. split; [discriminate | split; discriminate].
    - apply (reads_one 110 (lit "ull") r KNullLit); [reflexivity | reflexivity | reflexivity|]. split; [discriminate | split; discriminate].
  Qed.

  (** Strings *)
  Lemma str_run_plain c cs : c <> 34%Z -> c <> 92%Z -> str_run false (c :: cs) = let '(ok, b, t) := str_run false cs in (ok, c :: b, t).
  Proof. intros N1 N2. cbn [str_run negb andb]. destruct (Z.eqb_spec c 34); [contradiction|]. destruct (Z.eqb_spec c 92); [contradiction | reflexivity]. Qed.
  Lemma str_run_pair c cs : str_run false (92%Z :: c :: cs) = let '(ok, b, t) := str_run false cs in (ok, 92%Z :: c :: b, t).
  Proof. cbn [str_run negb andb Z.eqb Pos.eqb]. destruct (str_run false cs) as [[ok b] t]. reflexivity. Qed.
  Lemma str_run_hex h v cs : hex4 h v -> str_run false (h ++ cs) = let '(ok, b, t) := str_run false cs in (ok, h ++ b, t).
  Proof.
    intros H. destruct H as [a b c d va vb vc vd Ha Hb Hc Hd]. assert (N : forall x y, hexval x y -> x <> 34%Z /\ x <> 92%Z) by (intros x y []; lia).
    destruct (N _ _ Ha), (N _ _ Hb), (N _ _ Hc), (N _ _ Hd). cbn [app]. rewrite !str_run_plain by assumption. destruct (str_run false cs) as [[ok bb] t]. reflexivity.
  Qed.
  Lemma str_run_chars b d : jchars b d -> forall r, str_run false (b ++ 34%Z :: r) = (true, b ++ [34%Z], r).
  Proof.
    induction 1 as [| c s d _ _ N1 N2 _ IH | e v s d _ _ IH | h v s d Hh _ _ IH | h1 h2 v1 v2 s d H1 H2 _ _ _ IH]; intros r.
    - reflexivity.
    - cbn [app]. rewrite str_run_plain, IH by assumption. reflexivity.
    - cbn [app]. now rewrite str_run_pair, IH.
    - cbn [app]. rewrite <- !app_assoc, str_run_pair, (str_run_hex h v _ Hh), IH. reflexivity.
    - cbn [app]. rewrite <- !app_assoc. rewrite str_run_pair, (str_run_hex h1 v1 _ H1). cbn [app]. rewrite <- !app_assoc. rewrite str_run_pair, (str_run_hex h2 v2 _ H2), IH. reflexivity.
  Qed.
  Lemma reads_string s d r : jstring s d -> reads_as r s [KStringLit].
  Proof.
    intros H. pose proof H as (b & -> & Hb). apply (reads_one 34 (b ++ [34%Z]) r KStringLit); [|reflexivity | reflexivity | split; [discriminate|]; split; [discriminate | intros _; now exists d]].
    unfold lex1. change ((34 =? 32) || (34 =? 9) || (34 =? 10) || (34 =? 13))%Z with false. change (34 =? 34)%Z with true. cbv iota. rewrite <- app_assoc. cbn [app]. rewrite (str_run_chars b d Hb). reflexivity.
  Qed.

  (** Numbers *)
  Lemma digit_run s r : Forall is_digit s -> match r with [] => True | c :: _ => ascii_digit c = false end -> char_run ascii_digit (s ++ r) = s /\ drop_run ascii_digit (s ++ r) = r.
  Proof.
    intros F H. destruct (run_unique ascii_digit s r (s ++ r) eq_refl) as [<- <-]; [|assumption | now split]. revert F. apply Forall_impl. intros c Hc. unfold is_digit, ascii_digit in *. lia.
  Qed.
  Lemma follow_not r p : (forall c, is_ws c \/ c = 44%Z \/ c = 93%Z \/ c = 125%Z \/ c = 58%Z -> p c = false) -> follow r -> match r with [] => True | c :: _ => p c = false end.
  Proof. intros P H. apply follow_code in H. destruct r as [| c r]; [exact I | now apply P]. Qed.
  Lemma opt_none p r : match r with [] => True | c :: _ => p c = false end -> opt p r = [] /\ after_opt p r = r.
  Proof. destruct r as [| c r]; [now split|]. cbn. now intros ->. Qed.

  Lemma exp_run_json e r : jexp e -> follow r -> exp_run (e ++ r) = (e, r).
  Proof.
    intros He Fr. destruct He as [| x sign d t Hx Hs Hd Ht]; cbn [app]; unfold exp_run.
    - destruct (opt_none is_exp r) as [-> _]; [apply follow_not; [|assumption]; intros c Hc; unfold is_exp, is_ws in *; lia | reflexivity].
    - cbn [opt after_opt]. assert (is_exp x = true) as -> by (unfold is_exp; lia). cbn [nonempty].
      assert (D : opt is_sign ((sign ++ d :: t) ++ r) = sign /\ after_opt is_sign ((sign ++ d :: t) ++ r) = (d :: t) ++ r).
      { destruct Hs as [-> | [-> | ->]]; [|split; reflexivity | split; reflexivity]. apply opt_none. cbn [app]. unfold is_sign, is_digit in *. lia. }
      destruct D as [-> ->]. destruct (digit_run (d :: t) r) as [-> ->]; [now constructor | apply follow_not; [|assumption]; intros c Hc; unfold ascii_digit, is_ws in *; lia|]. reflexivity.
  Qed.

  Lemma tail_head e r p : jexp e -> follow r -> (forall c, is_ws c \/ c = 44%Z \/ c = 93%Z \/ c = 125%Z \/ c = 58%Z \/ c = 101%Z \/ c = 69%Z -> p c = false) -> match e ++ r with [] => True | c :: _ => p c = false end.
  Proof.
    intros He Fr P. destruct He as [| x sign d t Hx]; cbn [app]; [apply follow_not; [|assumption]; intros c Hc; apply P; tauto|]. apply P. tauto.
  Qed.

  Lemma decimal_run_json i f e r : jint i -> jfrac f -> jexp e -> follow r -> decimal_run (i ++ f ++ e ++ r) = (true, i ++ f ++ e, r).
  Proof.
    intros Hi Hf He Fr. unfold decimal_run.
    assert (Di : Forall is_digit i /\ i <> []) by (destruct Hi as [| c t Hc Ht]; split; try discriminate; [repeat constructor; unfold is_digit; lia | constructor; [unfold is_digit; lia | assumption]]). destruct Di as [Di Ni].
    destruct (digit_run i (f ++ e ++ r)) as [-> ->]; [assumption | destruct Hf; [cbn [app]; apply tail_head; try assumption; intros c Hc; unfold ascii_digit, is_ws in *; lia | reflexivity]|].
    assert (F : frac_run (f ++ e ++ r) = (skipn 1 f, e ++ r) /\ opt (Z.eqb 46) (f ++ e ++ r) = firstn 1 f).
    { unfold frac_run. destruct Hf as [| d t Hd Ht]; cbn [app].
      - destruct (opt_none (Z.eqb 46) (e ++ r)) as [-> _]; [apply tail_head; try assumption; intros c Hc; unfold is_ws in *; lia|]. now split.
      - cbn [opt after_opt Z.eqb Pos.eqb nonempty]. change (d :: t ++ e ++ r) with ((d :: t) ++ e ++ r). destruct (digit_run (d :: t) (e ++ r)) as [-> ->]; [now constructor | apply tail_head; try assumption; intros c Hc; unfold ascii_digit, is_ws in *; lia|]. now split. }
    destruct F as [-> ->]. rewrite (exp_run_json e r He Fr). destruct i; [contradiction|]. cbn [nonempty orb]. now rewrite (app_assoc (firstn 1 f)), firstn_skipn.
  Qed.

  Lemma number_run_json hex s r : jnumber s -> follow r -> number_run hex (s ++ r) = (true, s, r).
  Proof.
    intros H Fr. destruct H as [minus i f e Hm Hi Hf He]. unfold number_run.
    assert (M : opt (Z.eqb 45) ((minus ++ i ++ f ++ e) ++ r) = minus /\ after_opt (Z.eqb 45) ((minus ++ i ++ f ++ e) ++ r) = i ++ f ++ e ++ r).
    { rewrite <- !app_assoc. destruct Hm as [-> | ->]; cbn [app]; [|split; reflexivity]. apply opt_none. destruct Hi as [| c t Hc Ht]; cbn [app]; [reflexivity|]. apply Z.eqb_neq. lia. }
    destruct M as [-> ->].
    assert (X : hex && nonempty (opt (Z.eqb 48) (i ++ f ++ e ++ r)) && nonempty (opt is_x (after_opt (Z.eqb 48) (i ++ f ++ e ++ r))) = false).
    { destruct Hi as [| c t Hc Ht].
      - cbn [app opt after_opt Z.eqb Pos.eqb]. destruct (opt_none is_x (f ++ e ++ r)) as [-> _]; [|now rewrite andb_false_r]. destruct Hf; [cbn [app]; apply tail_head; try assumption; intros c Hc; unfold is_x, is_ws in *; lia | reflexivity].
      - cbn [app opt]. assert ((48 =? c)%Z = false) as -> by lia. now rewrite andb_false_r. }
    rewrite X, (decimal_run_json i f e r Hi Hf He Fr). reflexivity.
  Qed.

  Lemma number_head_char s : jnumber s -> exists c t, s = c :: t /\ (c = 45%Z \/ is_digit c).
  Proof.
    intros H. destruct H as [minus i f e Hm Hi Hf He]. destruct Hm as [-> | ->]; [|eexists; eexists; split; [reflexivity | now left]]. destruct Hi as [| c t Hc Ht]; eexists; eexists; (split; [reflexivity|]); right; unfold is_digit; lia.
  Qed.
  Lemma reads_number s r : jnumber s -> follow r -> reads_as r s [KNumberLit].
  Proof.
    intros H Fr. destruct (number_head_char s H) as (c & t & -> & Hc). apply (reads_one c t r KNumberLit).
    - unfold lex1. assert (((c =? 32) || (c =? 9) || (c =? 10) || (c =? 13))%Z = false) as -> by (unfold is_digit in *; lia). assert ((c =? 34)%Z = false) as -> by (unfold is_digit in *; lia). assert ((c =? 45)%Z || ascii_digit c = true) as -> by (unfold is_digit, ascii_digit in *; lia).
      change (c :: t ++ r) with ((c :: t) ++ r). now rewrite (number_run_json _ _ r H Fr).
    - unfold is_digit in *. lia.
    - unfold is_digit in *. lia.
    - split; [discriminate|]. split; [now intros _ | discriminate].
  Qed.

  (** Values *)
  Scheme jvalue_mind := Minimality for jvalue Sort Prop with jtext_mind := Minimality for jtext Sort Prop with jelements_mind := Minimality for jelements Sort Prop
    with jmembers_mind := Minimality for jmembers Sort Prop with jmember_mind := Minimality for jmember Sort Prop.
  Combined Scheme json_mutind from jvalue_mind, jtext_mind, jelements_mind, jmembers_mind, jmember_mind.

  Lemma value_head s v : jvalue s v -> exists c t, s = c :: t /\ char_is_whitespace c = false.
  Proof.
    intros H. destruct H as [| | | s H | s d H | | | |]; try (eexists; eexists; split; [reflexivity | reflexivity]).
    - destruct (number_head_char s H) as (c & t & -> & Hc). exists c, t. split; [reflexivity|]. unfold is_digit, char_is_whitespace in *. lia.
    - destruct H as (b & -> & _). eexists. eexists. split; [reflexivity | reflexivity].
  Qed.

  Lemma reads_json :
    (forall s v, jvalue s v -> forall r, follow r -> exists ks, tvalue cfg ks /\ reads_as r s ks) /\
    (forall s v, jtext s v -> forall r, closer r -> exists ks, tvalue cfg ks /\ reads_as r s ks) /\
    (forall s l, jelements s l -> forall r, closer r -> exists ks, tvalues cfg ks /\ reads_as r s ks) /\
    (forall s l, jmembers s l -> forall r, closer r -> exists ks, tmembers cfg ks /\ reads_as r s ks) /\
    (forall s k v, jmember s k v -> forall r, closer r -> exists kk ks, tkey cfg kk /\ tvalue cfg ks /\ reads_as r s (kk :: KColon :: ks)).
  Proof.
    assert (Kr : forall r, closer (93%Z :: r)) by (intros r; cbn; tauto). assert (Ko : forall r, closer (125%Z :: r)) by (intros r; cbn; tauto). assert (Kc : forall r, closer (44%Z :: r)) by (intros r; cbn; tauto). assert (Kk : forall r, closer (58%Z :: r)) by (intros r; cbn; tauto).
    apply json_mutind.
    - intros r _. exists [KNullLit]. split; [constructor; cbn; tauto|]. apply reads_word. cbn. tauto.
    - intros r _. exists [KBooleanLit]. split; [constructor; cbn; tauto|]. apply reads_word. cbn. tauto.
    - intros r _. exists [KBooleanLit]. split; [constructor; cbn; tauto|]. apply reads_word. cbn. tauto.
    - intros s H r Fr. exists [KNumberLit]. split; [constructor; cbn; tauto | now apply reads_number].
    - intros s d H r _. exists [KStringLit]. split; [constructor; cbn; tauto | now apply (reads_string s d)].
    - intros w W r _. exists [KLBracket; KRBracket]. split; [constructor|]. change [KLBracket; KRBracket] with ([KLBracket] ++ [] ++ [KRBracket]). apply reads_cat; [now apply reads_punct|]. apply reads_cat; [|now apply reads_punct]. apply reads_ws; [assumption | apply (closer_space _ (Kr r))].
    - intros s l _ IH r _. destruct (IH (93%Z :: r) (Kr r)) as (ks & Hk & Rk). exists (KLBracket :: ks ++ [] ++ [KRBracket]). split; [apply TVArray; [assumption | constructor]|]. cbn [app]. change (KLBracket :: ks ++ [KRBracket]) with ([KLBracket] ++ ks ++ [KRBracket]). apply reads_cat; [now apply reads_punct|]. apply reads_cat; [exact Rk | now apply reads_punct].
    - intros w W r _. exists [KLBrace; KRBrace]. split; [constructor|]. change [KLBrace; KRBrace] with ([KLBrace] ++ [] ++ [KRBrace]). apply reads_cat; [now apply reads_punct|]. apply reads_cat; [|now apply reads_punct]. apply reads_ws; [assumption | apply (closer_space _ (Ko r))].
    - intros s l _ IH r _. destruct (IH (125%Z :: r) (Ko r)) as (ks & Hk & Rk). exists (KLBrace :: ks ++ [] ++ [KRBrace]). split; [apply TVObject; [assumption | constructor]|]. cbn [app]. change (KLBrace :: ks ++ [KRBrace]) with ([KLBrace] ++ ks ++ [KRBrace]). apply reads_cat; [now apply reads_punct|]. apply reads_cat; [exact Rk | now apply reads_punct].
    - intros w1 s w2 v W1 Hv IH W2 r Cr. assert (F2 : follow (w2 ++ r)) by (destruct w2; [now apply closer_follow | inversion W2; subst; now left]). destruct (IH (w2 ++ r) F2) as (ks & Hk & Rk). exists ks. split; [assumption|]. rewrite <- (app_nil_r ks). change (ks ++ []) with ([] ++ ks ++ []).
      apply reads_cat; [|apply reads_cat; [exact Rk | apply reads_ws; [assumption | now apply closer_space]]]. apply reads_ws; [assumption|]. destruct (value_head s v Hv) as (c & t & -> & Hc). exact Hc.
    - intros s v _ IH r Cr. destruct (IH r Cr) as (ks & Hk & Rk). exists ks. split; [now constructor | assumption].
    - intros s v r' l _ IH1 _ IH2 r Cr. destruct (IH2 r Cr) as (k2 & H2 & R2). destruct (IH1 (44%Z :: r' ++ r) (Kc _)) as (k1 & H1 & R1). exists (k1 ++ KComma :: k2). split; [now constructor|]. change (k1 ++ KComma :: k2) with (k1 ++ [KComma] ++ k2). apply reads_cat; [exact R1|]. apply reads_cat; [now apply reads_punct | exact R2].
    - intros s k v _ IH r Cr. destruct (IH r Cr) as (kk & ks & Hk & Hs & R). exists (kk :: KColon :: ks). split; [now constructor | assumption].
    - intros s k v r' l _ IH1 _ IH2 r Cr. destruct (IH2 r Cr) as (k2 & H2 & R2). destruct (IH1 (44%Z :: r' ++ r) (Kc _)) as (kk & ks & Hk & Hs & R1). exists (kk :: KColon :: ks ++ KComma :: k2). split; [now constructor|]. change (kk :: KColon :: ks ++ KComma :: k2) with ((kk :: KColon :: ks) ++ [KComma] ++ k2). apply reads_cat; [exact R1|]. apply reads_cat; [now apply reads_punct | exact R2].
    - intros w1 q k w2 s v W1 Hq W2 _ IH r Cr. destruct (IH r Cr) as (ks & Hk & Rk). exists KStringLit, ks. split; [constructor|]. split; [assumption|]. change (KStringLit :: KColon :: ks) with ([] ++ [KStringLit] ++ [] ++ [KColon] ++ ks).
      apply reads_cat; [apply reads_ws; [assumption|]; destruct Hq as (b & -> & _); reflexivity|]. apply reads_cat; [now apply (reads_string q k)|]. apply reads_cat; [apply reads_ws; [assumption | reflexivity]|]. apply reads_cat; [now apply reads_punct | exact Rk].
  Qed.

  Lemma text_pieces s v : jtext s v -> exists ps, pieces_of s ps /\ Forall sound_plain ps /\ tvalue cfg (kp ps).
  Proof.
    intros H. destruct reads_json as (_ & R & _). destruct (R s v H [] I) as (ks & Hk & Rk). destruct (Rk [] ltac:(constructor)) as (ps & P & _ & W & K). rewrite !app_nil_r in P. exists ps. split; [assumption|]. split; [assumption | now rewrite K].
  Qed.

  (** Such pieces are the only ones the text has. *)
  Lemma pieces_unique cs p1 : pieces_of cs p1 -> Forall sound_plain p1 -> forall p2, pieces_of cs p2 -> p1 = p2.
  Proof.
    intros H. induction H as [| c r k s r' ps O E N _ IH]; intros F p2 H2; inversion H2 as [| c2 r2 k2 s2 r2' ps2 O2 E2 N2 P2]; subst; [reflexivity|].
    inversion F as [| ? ? [_ Pl] F']; subst. destruct s as [| x s]; [contradiction|]. injection E as <- E. cbn [plain snd] in Pl. destruct Pl as [N1 N3].
    assert (D : forall k s r', piece_ok alpha alnum cfg c r k s r' -> (k, s, r') = lex1 alpha alnum cfg c r) by (intros k0 s0 r0 [(H & _) | [(H & _) | (_ & _ & H)]]; [rewrite N1 in H; discriminate | rewrite N3 in H; discriminate | assumption]).
    apply D in O, O2. rewrite <- O2 in O. injection O as -> <- ->. f_equal. now apply IH.
  Qed.
End Forward.

(** ** From pieces to texts *)
Section Backward.
  Variable (alpha alnum : Z -> bool).

  Ltac each P := match type of P with False => destruct P | _ \/ _ => destruct P as [P | P]; [first [discriminate P | injection P as <-; auto] | each P] end.
  Definition fine (p : piece) : Prop := well_formed p /\ piece_sound alpha alnum standard p.

  Lemma kp_split ps a k b : kp ps = a ++ k :: b -> exists q1 s q2, ps = q1 ++ (Some k, s) :: q2 /\ kp q1 = a /\ kp q2 = b.
  Proof.
    revert a. induction ps as [| [o s] r IH]; intros a E; [destruct a; discriminate|]. cbn [kp flat_map fst] in E. fold (kp r) in E.
    assert (Skip : kp r = a ++ k :: b -> match o with Some x => if ignored x then [] else [x] | None => [] end = [] -> exists q1 s0 q2, (o, s) :: r = q1 ++ (Some k, s0) :: q2 /\ kp q1 = a /\ kp q2 = b).
    { intros E' Eo. destruct (IH a E') as (q1 & s0 & q2 & -> & K1 & K2). exists ((o, s) :: q1), s0, q2. split; [reflexivity|]. split; [|assumption]. cbn [kp flat_map fst]. now rewrite Eo. }
    destruct o as [x|]; [|now apply Skip]. destruct (ignored x) eqn:Ex; [apply Skip; [exact E | reflexivity]|]. cbn [app] in E. destruct a as [| y a]; cbn [app] in E; injection E as -> E.
    - exists [], s, r. now split.
    - destruct (IH a E) as (q1 & s0 & q2 & -> & K1 & K2). exists ((Some y, s) :: q1), s0, q2. split; [reflexivity|]. split; [|assumption]. cbn [kp flat_map fst]. rewrite Ex. cbn [app]. fold (kp q1). now rewrite K1.
  Qed.

  Lemma trivia_ws ps : Forall fine ps -> kp ps = [] -> ws (text_of_pieces ps).
  Proof.
    induction 1 as [| [o s] r [W (N & L)] _ IH]; intros E; [constructor|]. cbn [kp flat_map fst] in E. apply app_eq_nil in E as [E1 E2]. cbn [text_of_pieces flat_map snd]. apply Forall_app. split; [|now apply IH].
    destruct o as [k|]; [|destruct W]. cbn [fst snd] in *. destruct (ignored k) eqn:Ei; [|discriminate]. unfold ignored in Ei. apply orb_prop in Ei as [Ei | Ei]; apply Nat.eqb_eq in Ei; subst k; [now apply W|].
    exfalso. inversion L as [| | | | | k0 s0 Hi | k0 s0 Hi | s0 Hc | | |]; subst; [| |discriminate]; cbn [In] in Hi; each Hi.
  Qed.

  Lemma fine_kind k s : fine (Some k, s) ->
    (k = KStringLit -> exists d, jstring s d) /\ (k = KNumberLit -> jnumber s) /\ (k = KBooleanLit -> s = lit "true" \/ s = lit "false") /\ (k = KNullLit -> s = lit "null") /\
    (forall t, In (k, t) [(KLBrace, lit "{"); (KRBrace, lit "}"); (KLBracket, lit "["); (KRBracket, lit "]"); (KComma, lit ","); (KColon, lit ":")] -> s = t).
  Proof.
    intros [(W1 & W2 & W3) (N & L)]. cbn [fst snd] in *. split; [assumption|]. split; [assumption|].
    assert (P : forall K, In K [KLBrace; KRBrace; KLBracket; KRBracket; KComma; KColon; KBooleanLit; KNullLit] -> k = K -> In (k, s) [(KBooleanLit, lit "true"); (KBooleanLit, lit "false"); (KNullLit, lit "null"); (KLBrace, lit "{"); (KRBrace, lit "}"); (KLBracket, lit "["); (KRBracket, lit "]"); (KComma, lit ","); (KColon, lit ":")]).
    { intros K HK Ek. assert (B : existsb (Nat.eqb k) [KLBrace; KRBrace; KLBracket; KRBracket; KComma; KColon; KBooleanLit; KNullLit] = true) by (apply existsb_exists; exists K; split; [assumption | now apply Nat.eqb_eq]). clear - L B.
      inversion L as [| | | | | k0 s0 Hi | k0 s0 Hi | | | |]; subst; try discriminate B; cbn in Hi |- *; tauto. }
    split; [|split].
    - intros ->. specialize (P KBooleanLit ltac:(cbn; tauto) eq_refl). cbn [In] in P. each P.
    - intros ->. specialize (P KNullLit ltac:(cbn; tauto) eq_refl). cbn [In] in P. each P.
    - intros t Ht. specialize (P k). cbn [In] in Ht. do 6 (destruct Ht as [Ht | Ht]; [injection Ht as <- <-; specialize (P ltac:(cbn; tauto) eq_refl); cbn [In] in P; each P|]). destruct Ht.
  Qed.

  Scheme tvalue_mind := Minimality for tvalue Sort Prop with tvalues_mind := Minimality for tvalues Sort Prop with tmembers_mind := Minimality for tmembers Sort Prop.
  Combined Scheme tjson_mutind from tvalue_mind, tvalues_mind, tmembers_mind.

  Lemma pieces_json :
    (forall ks, tvalue standard ks -> forall ps, Forall fine ps -> kp ps = ks -> exists v, jtext (text_of_pieces ps) v) /\
    (forall ks, tvalues standard ks -> forall ps, Forall fine ps -> kp ps = ks -> exists l, jelements (text_of_pieces ps) l) /\
    (forall ks, tmembers standard ks -> forall ps, Forall fine ps -> kp ps = ks -> exists l, jmembers (text_of_pieces ps) l).
  Proof.
    assert (T0 : forall t, ttrail standard t -> t = []) by (intros t [| H]; [reflexivity | discriminate]).
    assert (Cut : forall ps a k b, Forall fine ps -> kp ps = a ++ k :: b -> exists q1 s q2, Forall fine q1 /\ Forall fine q2 /\ fine (Some k, s) /\ kp q1 = a /\ kp q2 = b /\ text_of_pieces ps = text_of_pieces q1 ++ s ++ text_of_pieces q2).
    { intros ps a k b F E. destruct (kp_split ps a k b E) as (q1 & s & q2 & -> & K1 & K2). apply Forall_app in F as [F1 F2]. inversion F2; subst. exists q1, s, q2. split; [assumption|]. split; [assumption|]. split; [assumption|]. split; [reflexivity|]. split; [reflexivity|]. now rewrite text_app. }
    assert (List : forall ps s o c os cs, Forall fine ps -> kp ps = o :: s ++ [] ++ [c] -> In (o, os) [(KLBrace, lit "{"); (KLBracket, lit "[")] -> In (c, cs) [(KRBrace, lit "}"); (KRBracket, lit "]")] ->
      exists q1 q2 q3, Forall fine q2 /\ kp q2 = s /\ ws (text_of_pieces q1) /\ ws (text_of_pieces q3) /\ text_of_pieces ps = text_of_pieces q1 ++ (os ++ text_of_pieces q2 ++ cs) ++ text_of_pieces q3).
    { intros ps s o c os cs F E Ho Hc. destruct (Cut ps [] o (s ++ [c]) F E) as (q1 & so & q & F1 & Fq & Fo & K1 & Kq & ->). destruct (Cut q s c [] Fq Kq) as (q2 & sc & q3 & F2 & F3 & Fc & K2 & K3 & ->). exists q1, q2, q3. split; [assumption|]. split; [assumption|]. split; [now apply trivia_ws|]. split; [now apply trivia_ws|].
      destruct (fine_kind _ _ Fo) as (_ & _ & _ & _ & Po). destruct (fine_kind _ _ Fc) as (_ & _ & _ & _ & Pc). rewrite (Po os) by (cbn [In] in Ho |- *; tauto). rewrite (Pc cs) by (cbn [In] in Hc |- *; tauto). now rewrite <- !app_assoc. }
    assert (Member : forall k s ps, (forall q, Forall fine q -> kp q = s -> exists v, jtext (text_of_pieces q) v) -> Forall fine ps -> tkey standard k -> kp ps = k :: KColon :: s -> exists kk v, jmember (text_of_pieces ps) kk v).
    { intros k s ps IH F Hk E. destruct Hk as [| Hk]; [|discriminate]. destruct (Cut ps [] KStringLit (KColon :: s) F E) as (q1 & sk & q & F1 & Fq & Fk & K1 & Kq & ->). destruct (Cut q [] KColon s Fq Kq) as (q2 & sc & q3 & F2 & F3 & Fc & K2 & K3 & ->).
      destruct (fine_kind _ _ Fk) as (Pk & _). destruct (fine_kind _ _ Fc) as (_ & _ & _ & _ & Pc). rewrite (Pc (lit ":")) by (cbn [In]; tauto). destruct (Pk eq_refl) as (d & Hd). destruct (IH q3 F3 K3) as (v & Hv). exists d, v. constructor; [now apply trivia_ws | assumption | now apply trivia_ws | assumption]. }
    apply tjson_mutind.
    - intros k Hk ps F E. destruct (Cut ps [] k [] F E) as (q1 & s & q2 & F1 & F2 & Fs & K1 & K2 & ->). apply trivia_ws in K1, K2; try assumption. destruct (fine_kind k s Fs) as (Ps & Pn & Pb & Pl & _).
      assert (V : exists v, jvalue s v). { cbn [In] in Hk. destruct Hk as [<- | [<- | [<- | [<- | []]]]]; [destruct (Ps eq_refl) as (d & Hd); exists (JString d); now constructor | exists (JNumber s); constructor; now apply Pn | destruct (Pb eq_refl) as [-> | ->]; eexists; constructor | rewrite (Pl eq_refl); eexists; constructor]. }
      destruct V as (v & V). exists v. now constructor.
    - intros ps F E. destruct (List ps [] KLBracket KRBracket (lit "[") (lit "]") F E ltac:(cbn; tauto) ltac:(cbn; tauto)) as (q1 & q2 & q3 & F2 & K2 & W1 & W3 & ->). exists (JArray []). constructor; [assumption | | assumption]. constructor. now apply trivia_ws.
    - intros s t _ IH Ht ps F E. rewrite (T0 t Ht) in E. destruct (List ps s KLBracket KRBracket (lit "[") (lit "]") F E ltac:(cbn; tauto) ltac:(cbn; tauto)) as (q1 & q2 & q3 & F2 & K2 & W1 & W3 & ->). destruct (IH q2 F2 K2) as (l & Hl). exists (JArray l). constructor; [assumption | | assumption]. now constructor.
    - intros ps F E. destruct (List ps [] KLBrace KRBrace (lit "{") (lit "}") F E ltac:(cbn; tauto) ltac:(cbn; tauto)) as (q1 & q2 & q3 & F2 & K2 & W1 & W3 & ->). exists (JObject []). constructor; [assumption | | assumption]. constructor. now apply trivia_ws.
    - intros s t _ IH Ht ps F E. rewrite (T0 t Ht) in E. destruct (List ps s KLBrace KRBrace (lit "{") (lit "}") F E ltac:(cbn; tauto) ltac:(cbn; tauto)) as (q1 & q2 & q3 & F2 & K2 & W1 & W3 & ->). destruct (IH q2 F2 K2) as (l & Hl). exists (JObject l). constructor; [assumption | | assumption]. now constructor.
    - intros s _ IH ps F E. destruct (IH ps F E) as (v & Hv). exists [v]. now constructor.
    - intros s r _ IH1 _ IH2 ps F E. destruct (Cut ps s KComma r F E) as (q1 & sc & q2 & F1 & F2 & Fc & K1 & K2 & ->). destruct (fine_kind _ _ Fc) as (_ & _ & _ & _ & Pc). rewrite (Pc (lit ",")) by (cbn [In]; tauto). destruct (IH1 q1 F1 K1) as (v & Hv). destruct (IH2 q2 F2 K2) as (l & Hl). exists (v :: l). now constructor.
    - intros k s Hk _ IH ps F E. destruct (Member k s ps IH F Hk E) as (kk & v & Hm). exists [(kk, v)]. now constructor.
    - intros k s r Hk _ IH1 _ IH2 ps F E. destruct (Cut ps (k :: KColon :: s) KComma r F E) as (q1 & sc & q2 & F1 & F2 & Fc & K1 & K2 & ->). destruct (fine_kind _ _ Fc) as (_ & _ & _ & _ & Pc). rewrite (Pc (lit ",")) by (cbn [In]; tauto). destruct (Member k s q1 IH1 F1 Hk K1) as (kk & v & Hm). destruct (IH2 q2 F2 K2) as (l & Hl). exists ((kk, v) :: l). now constructor.
  Qed.
End Backward.
