(** Properties of JSON values: what a text is read as, and what a value is written as. *)
From Verif Require Import Base Utf8 Utf8Facts EditModel LexModel LexSpec CursorModel RopeModel TreeModel TreeSpec ParserModel ParserSpec.
From Verif Require Import JsonSpec JsonModel JsonLangSpec JsonLexProofs JsonParseProofs JsonTextProofs JsonDocProofs JsonAstModel JsonAstSpec JsonAstProofs JsonAstBuildProofs.

(** ** Helpers *)
Scheme tidy_ind2 := Induction for tidy Sort Prop
with tidy_elements_ind2 := Induction for tidy_elements Sort Prop
with tidy_members_ind2 := Induction for tidy_members Sort Prop.
Combined Scheme tidy_mind from tidy_ind2, tidy_elements_ind2, tidy_members_ind2.

Lemma plain_key b : Forall plain_char b -> ckey b.
Proof.
  intros H. constructor.
  - induction H as [| c r (_ & _ & N1 & N2) _ IH]; [constructor | now apply EBPlain].
  - destruct b as [| c r] using rev_ind; [discriminate|]. rewrite last_last. apply Forall_app in H as [_ H]. inversion H as [| ? ? (_ & _ & N & _) _]. assumption.
  - revert H. apply Forall_impl. now intros c [].
Qed.

Lemma tidy_cval : (forall s v, tidy s v -> exists ps g, cval s ps g v) /\ (forall s l, tidy_elements s l -> exists ps gs, celems s ps gs l) /\ (forall s l, tidy_members s l -> exists ps gs, cmembs s ps gs l).
Proof.
  apply tidy_mind.
  - intros w W. eexists. eexists. now apply CNull.
  - eexists. eexists. apply CTrue.
  - intros w W. eexists. eexists. now apply CFalse.
  - intros s J. eexists. eexists. now apply CNumber.
  - intros s H. eexists. eexists. apply CString. now apply plain_key.
  - intros w1 w2 W1 W2. eexists. eexists. now apply CArray0.
  - intros w1 s l w2 W1 _ (ps & gs & C) W2. eexists. eexists. eapply CArray; eassumption.
  - intros w1 w2 W1 W2. eexists. eexists. now apply CObject0.
  - intros w1 s l w2 W1 _ (ps & gs & C) W2. eexists. eexists. eapply CObject; eassumption.
  - intros s v _ (ps & g & C). eexists. eexists. eapply CEOne; eassumption.
  - intros s v w r l _ (ps & g & C) W _ (qs & gs & Cl). eexists. eexists. eapply CEMore; eassumption.
  - intros k w1 w2 s v K W1 W2 _ (ps & g & C). eexists. eexists. eapply CMOne, CMemb; [now apply plain_key | assumption | assumption | eassumption].
  - intros k w1 w2 s v w r l K W1 W2 _ (ps & g & C) W _ (qs & gs & Cl). eexists. eexists. eapply CMMore; [eapply CMemb; [now apply plain_key | assumption | assumption | eassumption] | assumption | eassumption].
Qed.

Lemma plain_jchars b : Forall plain_char b -> jchars b b.
Proof. induction 1 as [| c r (H1 & H2 & H3 & H4) _ IH]; [constructor | now apply JCPlain]. Qed.

Lemma text_ws w s v : ws w -> jtext s v -> jtext (w ++ s) v.
Proof. intros W [w1 s' w2 v' W1 V W2]. rewrite app_assoc. apply TText; [apply Forall_app; now split | assumption | assumption]. Qed.
Lemma elements_ws w s l : ws w -> jelements s l -> jelements (w ++ s) l.
Proof. intros W [s' v T | s' v r l' T R]; [apply EOne; now apply text_ws|]. rewrite app_assoc. apply EMore; [now apply text_ws | assumption]. Qed.
Lemma member_ws w s k v : ws w -> jmember s k v -> jmember (w ++ s) k v.
Proof. intros W [w1 q k' w2 s' v' W1 Q W2 T]. rewrite app_assoc. apply MMember; [apply Forall_app; now split | assumption | assumption | assumption]. Qed.
Lemma members_ws w s l : ws w -> jmembers s l -> jmembers (w ++ s) l.
Proof. intros W [s' k v T | s' k v r l' T R]; [apply MOne; now apply member_ws|]. rewrite app_assoc. apply MMore; [now apply member_ws | assumption]. Qed.

(** The texts of [tidy] are JSON texts with these values. *)
Theorem tidy_json : forall s v, tidy s v -> jtext s v.
Proof.
  enough (H : (forall s v, tidy s v -> jtext s v) /\ (forall s l, tidy_elements s l -> jelements s l) /\ (forall s l, tidy_members s l -> jmembers s l)) by apply H.
  assert (Bare : forall s v, jvalue s v -> jtext s v) by (intros s v H; rewrite <- (app_nil_r s); apply (TText [] s []); [constructor | assumption | constructor]).
  assert (After : forall s w v, jvalue s v -> ws w -> jtext (s ++ w) v) by (intros s w v H W; apply (TText [] s w); [constructor | assumption | assumption]).
  assert (Q : forall b, Forall plain_char b -> jstring (quoted b) b) by (intros b H; exists b; split; [reflexivity | now apply plain_jchars]).
  apply tidy_mind.
  - intros w W. now apply After; [apply VNull|].
  - apply Bare, VTrue.
  - intros w W. now apply After; [apply VFalse|].
  - intros s J. now apply Bare, VNumber.
  - intros s H. now apply Bare, VString, Q.
  - intros w1 w2 W1 W2. pose proof (After _ w2 _ (VArray0 w1 W1) W2) as A. now rewrite <- !app_assoc in A.
  - intros w1 s l w2 W1 _ E W2. pose proof (After _ w2 _ (VArray (w1 ++ s) l (elements_ws _ _ _ W1 E)) W2) as A. now rewrite <- !app_assoc in A.
  - intros w1 w2 W1 W2. pose proof (After _ w2 _ (VObject0 w1 W1) W2) as A. now rewrite <- !app_assoc in A.
  - intros w1 s l w2 W1 _ E W2. pose proof (After _ w2 _ (VObject (w1 ++ s) l (members_ws _ _ _ W1 E)) W2) as A. now rewrite <- !app_assoc in A.
  - intros s v _ T. now apply EOne.
  - intros s v w r l _ T W _ E. apply EMore; [assumption | now apply elements_ws].
  - intros k w1 w2 s v K W1 W2 _ T. apply MOne. apply (MMember [] (quoted k) k w1 (w2 ++ s)); [constructor | now apply Q | assumption | now apply text_ws].
  - intros k w1 w2 s v w r l K W1 W2 _ T W _ E. apply MMore; [|now apply members_ws]. apply (MMember [] (quoted k) k w1 (w2 ++ s)); [constructor | now apply Q | assumption | now apply text_ws].
Qed.
Print Assumptions tidy_json.

(** Texts without such whitespace and escapes are read as the values they have, with the right places. *)
Theorem json_value_partial : forall (F : Type) parse_f64 alpha alnum cs v, (forall s, jnumber s -> exists f : F, parse_f64 s = Some f) ->
  tidy cs v -> (Z.of_nat (length (encode cs)) < 2 ^ 32)%Z ->
  exists a, oak_json_parse alpha alnum parse_f64 (encode cs) = Some (Ok a) /\ denotes F parse_f64 a v /\ placed F parse_f64 (encode cs) a.
Proof. intros F parse_f64 alpha alnum cs v Tot T L. destruct (proj1 tidy_cval cs v T) as (ps & g & C). exact (cval_value F parse_f64 Tot alpha alnum cs ps g v C L). Qed.
Print Assumptions json_value_partial.

(** Reading never fails to answer. *)
Theorem json_value_total : forall (F : Type) (parse_f64 : str -> option F) alpha alnum text, valid text -> (Z.of_nat (length text) < 2 ^ 32)%Z ->
  exists r, oak_json_parse alpha alnum parse_f64 text = Some r.
Proof.
  intros F parse_f64 alpha alnum text (cs & Sc & ->) L. destruct (json_parse_spec alpha alnum standard cs Sc L) as (ps & root & errs & lead & used & left & _ & _ & _ & E & _). unfold oak_json_parse. rewrite E. eexists. reflexivity.
Qed.
Print Assumptions json_value_total.

Lemma one_number : jnumber (lit "1").
Proof. apply (JNum [] [49%Z] [] []); [now left | apply JIPos; [lia | constructor] | constructor | constructor]. Qed.
Lemma two_number : jnumber (lit "2").
Proof. apply (JNum [] [50%Z] [] []); [now left | apply JIPos; [lia | constructor] | constructor | constructor]. Qed.

(** With whitespace or escapes the value is another one, or there is none. *)
Theorem json_value_refuted :
  (exists cs, jtext cs (JBool true) /\ forall (F : Type) (parse_f64 : str -> option F) alpha alnum, exists s, oak_json_parse alpha alnum parse_f64 (encode cs) = Some (Ok (ABool false s))) /\
  (exists cs, jtext cs (JArray [JNumber (lit "1"); JNumber (lit "2")]) /\ forall (F : Type) (parse_f64 : str -> option F) alpha alnum, parse_f64 (lit "1 ") = None -> oak_json_parse alpha alnum parse_f64 (encode cs) = Some Err) /\
  (exists cs, jtext cs (JArray [JNumber (lit "1")]) /\ forall (F : Type) (parse_f64 : str -> option F) alpha alnum, parse_f64 (lit "[") = None -> oak_json_parse alpha alnum parse_f64 (encode cs) = Some Err) /\
  (exists cs, jtext cs (JString (lit "a""")) /\ forall (F : Type) (parse_f64 : str -> option F) alpha alnum, exists s, oak_json_parse alpha alnum parse_f64 (encode cs) = Some (Ok (AString (lit "a\") s))) /\
  (exists cs, jtext cs (JArray [JString (lit "a")]) /\ forall (F : Type) (parse_f64 : str -> option F) alpha alnum, exists s1 s2, oak_json_parse alpha alnum parse_f64 (encode cs) = Some (Ok (AArray [AString (lit "a"" ") s1] s2))).
Proof.
  assert (W1 : ws (lit " ")) by (constructor; [now left | constructor]).
  assert (One : forall w, ws w -> jtext (lit "1" ++ w) (JNumber (lit "1"))) by (intros w W; apply (TText [] (lit "1") w); [constructor | apply VNumber, one_number | assumption]).
  split; [|split; [|split; [|split]]].
  - exists (lit "true "). split; [apply (TText [] (lit "true") (lit " ")); [constructor | constructor | exact W1]|]. intros F parse_f64 alpha alnum. exists (0, 5). vm_compute. reflexivity.
  - exists (lit "[1 ,2]"). split; [|intros F parse_f64 alpha alnum H; vm_compute; vm_compute in H; rewrite H; reflexivity].
    apply (TText [] (lit "[1 ,2]") []); [constructor | | constructor]. apply (VArray (lit "1 ,2")). apply (EMore (lit "1 ") (JNumber (lit "1")) (lit "2")); [now apply (One (lit " "))|]. apply EOne. apply (TText [] (lit "2") []); [constructor | apply VNumber, two_number | constructor].
  - exists (lit " [1]"). split; [|intros F parse_f64 alpha alnum H; vm_compute; vm_compute in H; rewrite H; reflexivity].
    apply (TText (lit " ") (lit "[1]") []); [exact W1 | | constructor]. apply (VArray (lit "1")). apply EOne. apply (One []). constructor.
  - exists (lit """a\"""""). split; [|intros F parse_f64 alpha alnum; exists (0, 5); vm_compute; reflexivity].
    apply (TText [] (lit """a\""""") []); [constructor | | constructor]. apply VString. exists (lit "a\"""). split; [reflexivity|]. apply JCPlain; [apply is_scalarb_spec; reflexivity | apply Z.leb_le; reflexivity | discriminate | discriminate|]. apply (JCShort 34%Z 34%Z [] []); [now left | constructor].
  - exists (lit "[""a"" ]"). split; [|intros F parse_f64 alpha alnum; exists (1, 5), (0, 6); vm_compute; reflexivity].
    apply (TText [] (lit "[""a"" ]") []); [constructor | | constructor]. apply (VArray (lit """a"" ")). apply EOne. apply (TText [] (lit """a""") (lit " ")); [constructor | | exact W1]. apply VString. exists (lit "a"). split; [reflexivity|]. apply JCPlain; [apply is_scalarb_spec; reflexivity | apply Z.leb_le; reflexivity | discriminate | discriminate | constructor].
Qed.
Print Assumptions json_value_refuted.

(** Texts that are not JSON have values: the diagnostics of the parser are not looked at. *)
Theorem json_malformed_refuted : exists c1 c2, (forall v, ~ jtext c1 v) /\ (forall v, ~ jtext c2 v) /\
  forall (F : Type) (parse_f64 : str -> option F) alpha alnum f, parse_f64 (lit "1") = Some f ->
    (exists s1 s2, oak_json_parse alpha alnum parse_f64 (encode c1) = Some (Ok (AArray [ANumber f s1] s2))) /\
    (exists s1 s2, oak_json_parse alpha alnum parse_f64 (encode c2) = Some (Ok (AArray [ANumber f s1] s2))).
Proof.
  assert (Bad : forall cs g errs, json_parse (fun _ => false) (fun _ => false) standard (encode cs) None = Some (g, errs) -> errs <> [] -> forallb is_scalarb cs = true -> (Z.of_nat (length (encode cs)) <? 2 ^ 32)%Z = true -> forall v, ~ jtext cs v).
  { intros cs g errs E N Sc L v J. apply scalars_by in Sc. apply Z.ltb_lt in L. destruct (valid_parse (fun _ => false) (fun _ => false) standard cs v Sc L J) as (root & ps & w & rest & E' & _). rewrite E in E'. injection E' as _ ->. contradiction. }
  exists (lit "[1"), (lit "[1,]"). split; [eapply Bad; [vm_compute; reflexivity | discriminate | reflexivity | reflexivity]|]. split; [eapply Bad; [vm_compute; reflexivity | discriminate | reflexivity | reflexivity]|].
  intros F parse_f64 alpha alnum f H. split.
  - exists (1, 2), (0, 2). vm_compute. vm_compute in H. rewrite H. reflexivity.
  - exists (1, 2), (0, 3). vm_compute. vm_compute in H. rewrite H. reflexivity.
Qed.
Print Assumptions json_malformed_refuted.

(** ** Writing values *)
Section AstInd.
  Variable (F : Type) (P : ast F -> Prop).
  Hypothesis (HNull : forall s, P (ANull s)) (HBool : forall b s, P (ABool b s)) (HNumber : forall f s, P (ANumber f s)) (HString : forall v s, P (AString v s)).
  Hypothesis (HArray : forall l s, Forall P l -> P (AArray l s)) (HObject : forall l s, Forall (fun f => P (snd (fst f))) l -> P (AObject l s)).
  Fixpoint ast_induct (a : ast F) : P a :=
    match a with
    | ANull s => HNull s | ABool b s => HBool b s | ANumber f s => HNumber f s | AString v s => HString v s
    | AArray l s => HArray l s ((fix go l := match l return Forall P l with [] => Forall_nil _ | x :: r => Forall_cons _ (ast_induct x) (go r) end) l)
    | AObject l s => HObject l s ((fix go l := match l return Forall (fun f => P (snd (fst f))) l with [] => Forall_nil _ | x :: r => Forall_cons _ (ast_induct (snd (fst x))) (go r) end) l)
    end.
End AstInd.

(** The two ways of writing a value agree. *)
Theorem json_source_string : forall (F : Type) (show : F -> str) a, to_source F show a = to_string F show a.
Proof.
  intros F show. assert (Push : forall l comma buffer, push_all l comma buffer = buffer ++ (if comma then match l with [] => [] | _ => lit "," end else []) ++ join (lit ",") l).
  { induction l as [| x l IH]; intros comma buffer; cbn [push_all join]; [destruct comma; now rewrite !app_nil_r|]. rewrite IH. destruct comma, l; cbn [app join]; rewrite <- ?app_assoc, ?app_nil_r; reflexivity. }
  induction a as [| | | |l s IH|l s IH] using ast_induct; try reflexivity.
  - cbn [to_source to_string]. rewrite Push. cbn [app]. rewrite <- app_assoc. cbn [app]. do 3 f_equal. apply map_ext_Forall. exact IH.
  - cbn [to_source to_string]. rewrite Push. cbn [app]. rewrite <- app_assoc. cbn [app]. do 3 f_equal. apply map_ext_Forall. revert IH. apply Forall_impl. intros f H. cbv beta in *. unfold quote. rewrite <- !app_assoc. do 4 f_equal. exact H.
Qed.
Print Assumptions json_source_string.

Section Round.
  Variable (F : Type) (parse_f64 : str -> option F) (show : F -> str).
  Notation denotes := (denotes F parse_f64).

  Lemma denotes_one a : forall a' v, denotes a v -> denotes a' v -> erase a = erase a'.
  Proof.
    induction a as [s | b s | f s | t s | l s IH | l s IH] using ast_induct; intros a' v H H'.
    - destruct v; try contradiction. destruct a'; try contradiction. reflexivity.
    - destruct v; try contradiction. destruct a'; try contradiction. cbn in *. congruence.
    - destruct v; try contradiction. destruct a'; try contradiction. cbn in *. rewrite H in H'. injection H' as ->. reflexivity.
    - destruct v; try contradiction. destruct a'; try contradiction. cbn in *. congruence.
    - destruct v as [| | | | m |]; try contradiction. destruct a' as [| | | | l' s' |]; try contradiction. apply denotes_array in H, H'. cbn [erase]. f_equal. revert l' m H H'. induction IH as [| x r Hx _ IHr]; intros l' m H H'; inversion H; subst; inversion H'; subst; [reflexivity|]. cbn [map]. f_equal; [eapply Hx; eassumption | eapply IHr; eassumption].
    - destruct v as [| | | | | m]; try contradiction. destruct a' as [| | | | | l' s']; try contradiction. apply denotes_object in H, H'. cbn [erase]. f_equal. revert l' m H H'. induction IH as [| x r Hx _ IHr]; intros l' m H H'; inversion H as [| ? ? ? ? [K1 D1] H1]; subst; inversion H' as [| ? ? ? ? [K2 D2] H2]; subst; [reflexivity|]. cbn [map]. f_equal; [|eapply IHr; eassumption]. rewrite K1, K2. now rewrite (Hx _ _ D1 D2).
  Qed.

  Lemma string_key s : printable_string s -> exists b, s = encode b /\ ckey b.
  Proof. intros (b & -> & Sc & E & N). exists b. split; [reflexivity | now constructor]. Qed.

  Lemma printable_array l s : printable F parse_f64 show (AArray l s) -> Forall (printable F parse_f64 show) l.
  Proof. cbn [printable]. induction l as [| a l IH]; [constructor|]. intros [H1 H2]. constructor; [assumption | now apply IH]. Qed.
  Lemma printable_object l s : printable F parse_f64 show (AObject l s) -> Forall (fun f => printable_string (fst (fst (fst f))) /\ printable F parse_f64 show (snd (fst f))) l.
  Proof. cbn [printable]. induction l as [| [[[k ks] a] fs] l IH]; [constructor|]. intros (H1 & H2 & H3). constructor; [now split | now apply IH]. Qed.

  Lemma printed a : printable F parse_f64 show a -> exists cs ps g v, to_string F show a = encode cs /\ cval cs ps g v /\ denotes a v.
  Proof.
    assert (A : forall s, forallb (fun c => (0 <=? c) && (c <? 128))%Z s = true -> encode s = s) by (intros s H; apply encode_ascii, Forall_forall; intros c Hc; rewrite forallb_forall in H; specialize (H c Hc); lia).
    induction a as [s | b s | f s | t s | l s IH | l s IH] using ast_induct; intros Pr.
    - exists (lit "null"); do 2 eexists; exists JNull. split; [reflexivity|]. split; [exact (CNull [] (Forall_nil _)) | exact I].
    - destruct b; [exists (lit "true"); do 2 eexists; exists (JBool true); split; [reflexivity|]; split; [exact CTrue | reflexivity] | exists (lit "false"); do 2 eexists; exists (JBool false); split; [reflexivity|]; split; [exact (CFalse [] (Forall_nil _)) | reflexivity]].
    - destruct Pr as [J E]. exists (show f); do 2 eexists; exists (JNumber (show f)). cbn [to_string]. rewrite (number_ascii (show f) J). split; [reflexivity|]. split; [now apply CNumber|]. cbn. now rewrite (number_ascii (show f) J).
    - destruct (string_key t Pr) as (b & -> & K). exists (quoted b); do 2 eexists; exists (JString b). split; [cbn [to_string]; unfold quote, quoted; rewrite !encode_app; reflexivity|]. split; [now apply CString | reflexivity].
    - apply printable_array in Pr. destruct l as [| a l].
      + exists (lit "[]"); do 2 eexists; exists (JArray []). split; [reflexivity|]. split; [exact (CArray0 [] [] (Forall_nil _) (Forall_nil _)) | exact I].
      + assert (E : exists cs ps gs m, join (lit ",") (map (to_string F show) (a :: l)) = encode cs /\ celems cs ps gs m /\ Forall2 denotes (a :: l) m).
        { revert a IH Pr. induction l as [| b l IHl]; intros a IH Pr; inversion IH as [| ? ? Ia Il]; subst; inversion Pr as [| ? ? Pa Pl]; subst; destruct (Ia Pa) as (cs & ps & g & v & E & C & D).
          - exists cs, ps, [g], [v]. split; [exact E|]. split; [now apply CEOne | constructor; [assumption | constructor]].
          - destruct (IHl b Il Pl) as (cs2 & ps2 & gs2 & m & E2 & C2 & D2). exists (cs ++ lit "," ++ [] ++ cs2), (ps ++ tok KComma (lit ",") [] ++ ps2), (g :: leaves (tok KComma (lit ",") []) ++ gs2), (v :: m). split; [|split; [apply CEMore; [assumption | constructor | assumption] | now constructor]].
            change (to_string F show a ++ lit "," ++ join (lit ",") (map (to_string F show) (b :: l)) = encode (cs ++ lit "," ++ [] ++ cs2)). rewrite E2, E, !encode_app. reflexivity. }
        destruct E as (cs & ps & gs & m & E & C & D). exists (lit "[" ++ [] ++ cs ++ lit "]" ++ []); do 2 eexists; exists (JArray m). split; [|split; [eapply CArray; [constructor | eassumption | constructor] | now apply denotes_array]].
        cbn [to_string]. rewrite E, !encode_app. now rewrite app_nil_r.
    - apply printable_object in Pr. destruct l as [| a l].
      + exists (lit "{}"); do 2 eexists; exists (JObject []). split; [reflexivity|]. split; [exact (CObject0 [] [] (Forall_nil _) (Forall_nil _)) | exact I].
      + set (pf := fun f : str * span * ast F * span => quote (fst (fst (fst f))) ++ lit ":" ++ to_string F show (snd (fst f))).
        assert (E : exists cs ps gs m, join (lit ",") (map pf (a :: l)) = encode cs /\ cmembs cs ps gs m /\ Forall2 (same_field F parse_f64) (a :: l) m).
        { assert (One : forall f, printable_string (fst (fst (fst f))) /\ printable F parse_f64 show (snd (fst f)) -> (printable F parse_f64 show (snd (fst f)) -> exists cs ps g v, to_string F show (snd (fst f)) = encode cs /\ cval cs ps g v /\ denotes (snd (fst f)) v) -> exists cs ps g k v, pf f = encode cs /\ cmemb cs ps g k v /\ same_field F parse_f64 f (k, v)).
          { intros f [Pk Pv] H. destruct (H Pv) as (cs & ps & g & v & E & C & D). destruct (string_key _ Pk) as (k & Ek & K). exists (quoted k ++ [] ++ lit ":" ++ [] ++ cs); do 2 eexists; exists k, v. split; [unfold pf, quote, quoted; rewrite Ek, E, !encode_app; cbn [app]; now rewrite <- !app_assoc|]. split; [eapply CMemb; [assumption | constructor | constructor | eassumption] | split; assumption]. }
          revert a IH Pr. induction l as [| b l IHl]; intros a IH Pr; inversion IH as [| ? ? Ia Il]; subst; inversion Pr as [| ? ? Pa Pl]; subst; destruct (One a Pa Ia) as (cs & ps & g & k & v & E & C & D).
          - exists cs, ps, [g], [(k, v)]. split; [exact E|]. split; [now apply CMOne | constructor; [assumption | constructor]].
          - destruct (IHl b Il Pl) as (cs2 & ps2 & gs2 & m & E2 & C2 & D2). exists (cs ++ lit "," ++ [] ++ cs2), (ps ++ tok KComma (lit ",") [] ++ ps2), (g :: leaves (tok KComma (lit ",") []) ++ gs2), ((k, v) :: m). split; [|split; [apply CMMore; [assumption | constructor | assumption] | now constructor]].
            change (pf a ++ lit "," ++ join (lit ",") (map pf (b :: l)) = encode (cs ++ lit "," ++ [] ++ cs2)). rewrite E2, E, !encode_app. reflexivity. }
        destruct E as (cs & ps & gs & m & E & C & D). exists (lit "{" ++ [] ++ cs ++ lit "}" ++ []); do 2 eexists; exists (JObject m). split; [|split; [eapply CObject; [constructor | eassumption | constructor] | now apply denotes_object]].
        change (to_string F show (AObject (a :: l) s)) with (lit "{" ++ join (lit ",") (map pf (a :: l)) ++ lit "}"). rewrite E, !encode_app. now rewrite app_nil_r.
  Qed.
End Round.

(** A value that can be written without escapes is read back; the places are those in the text written. *)
Theorem json_roundtrip_partial : forall (F : Type) parse_f64 (show : F -> str) alpha alnum a, (forall s, jnumber s -> exists f : F, parse_f64 s = Some f) ->
  printable F parse_f64 show a -> (Z.of_nat (length (to_string F show a)) < 2 ^ 32)%Z ->
  exists a', oak_json_parse alpha alnum parse_f64 (to_string F show a) = Some (Ok a') /\ erase a' = erase a /\ placed F parse_f64 (to_string F show a) a'.
Proof.
  intros F parse_f64 show alpha alnum a Tot Pr L. destruct (printed F parse_f64 show a Pr) as (cs & ps & g & v & E & C & D). rewrite E in *. destruct (cval_value F parse_f64 Tot alpha alnum cs ps g v C L) as (a' & E' & D' & P'). exists a'. split; [assumption|]. split; [|assumption]. exact (denotes_one F parse_f64 a' a v D' D).
Qed.
Print Assumptions json_roundtrip_partial.

(** A quote in a string is not escaped, and numbers that are not finite cannot be read. *)
Theorem json_roundtrip_refuted :
  (exists t, valid t /\ forall (F : Type) (parse_f64 : str -> option F) (show : F -> str) alpha alnum, exists t' s, t' <> t /\ oak_json_parse alpha alnum parse_f64 (to_string F show (AString t (0, 0))) = Some (Ok (AString t' s))) /\
  (exists t, valid t /\ forall (F : Type) (parse_f64 : str -> option F) (show : F -> str) alpha alnum, oak_json_parse alpha alnum parse_f64 (to_string F show (AString t (0, 0))) = Some Err) /\
  (forall (F : Type) (parse_f64 : str -> option F) (show : F -> str) alpha alnum f, In (show f) [lit "NaN"; lit "inf"; lit "-inf"] -> oak_json_parse alpha alnum parse_f64 (to_string F show (ANumber f (0, 0))) = Some Err).
Proof.
  assert (V : forall s, forallb is_scalarb s = true -> encode s = s -> valid s) by (intros s H E; exists s; split; [now apply scalars_by | now symmetry]).
  split; [|split].
  - exists (lit "a""b"). split; [apply V; reflexivity|]. intros F parse_f64 show alpha alnum. exists (lit "a"), (0, 3). split; [discriminate | vm_compute; reflexivity].
  - exists (lit "\"). split; [apply V; reflexivity|]. intros F parse_f64 show alpha alnum. vm_compute. reflexivity.
  - intros F parse_f64 show alpha alnum f [H | [H | [H | []]]]; cbn [to_string]; rewrite <- H; vm_compute; reflexivity.
Qed.
Print Assumptions json_roundtrip_refuted.

(** The field found is the first one with the name. *)
Theorem json_get_first : forall (F : Type) l s key (v : ast F),
  value_get F (AObject l s) key = Some v <-> exists l1 ks fs l2, l = l1 ++ (key, ks, v, fs) :: l2 /\ Forall (fun f => fst (fst (fst f)) <> key) l1.
Proof.
  intros F l s key v. cbn [value_get]. unfold object_get. induction l as [| [[[k ks] x] fs] l IH]; cbn [find fst snd].
  - split; [discriminate|]. intros (l1 & ks & fs & l2 & E & _). destruct l1; discriminate.
  - destruct (list_eq_dec Z.eq_dec k key) as [-> | N].
    + cbn [option_map fst snd]. split.
      * intros E. injection E as ->. exists [], ks, fs, l. split; [reflexivity | constructor].
      * intros (l1 & ks' & fs' & l2 & E & H). destruct l1 as [| y l1]; [injection E as _ -> _ _; reflexivity|]. injection E as <- _. inversion H as [| ? ? N _]; subst. now contradiction N.
    + rewrite IH. split.
      * intros (l1 & ks' & fs' & l2 & -> & H). exists ((k, ks, x, fs) :: l1), ks', fs', l2. split; [reflexivity | now constructor].
      * intros (l1 & ks' & fs' & l2 & E & H). destruct l1 as [| y l1]; [injection E as E _ _ _ _; contradiction|]. injection E as _ ->. inversion H; subst. exists l1, ks', fs', l2. now split.
Qed.
Print Assumptions json_get_first.

(** ** Concrete cases *)
(** A number stands for itself. *)
Definition text_f64 (s : str) : option str := Some s.
Example text_f64_total : forall s, jnumber s -> exists f, text_f64 s = Some f.
Proof. intros s _. now exists s. Qed.

Definition sample : list Z := lit "[ 1,{ ""a"" : null , ""b"":[true, false ] } ]".
Example sample_tidy : tidy sample (JArray [JNumber (lit "1"); JObject [(lit "a", JNull); (lit "b", JArray [JBool true; JBool false])]]).
Proof.
  assert (W : ws (lit " ")) by (constructor; [now left | constructor]). assert (N : ws []) by constructor.
  assert (K : forall c, (97 <= c <= 98)%Z -> Forall plain_char [c]) by (intros c H; constructor; [split; [unfold is_scalar; lia | lia] | constructor]).
  apply (TArray (lit " ") (lit "1,{ ""a"" : null , ""b"":[true, false ] } ") _ []); [assumption | | assumption].
  apply (TEMore (lit "1") _ [] (lit "{ ""a"" : null , ""b"":[true, false ] } ")); [apply TNumber, one_number | assumption|]. apply TEOne.
  apply (TObject (lit " ") (lit """a"" : null , ""b"":[true, false ] ") _ (lit " ")); [assumption | | assumption].
  apply (TMMore (lit "a") (lit " ") (lit " ") (lit "null ") JNull (lit " ") (lit """b"":[true, false ] ")); [apply K; cbn; lia | assumption | assumption | now apply (TNull (lit " ")) | assumption|].
  apply (TMOne (lit "b") [] [] (lit "[true, false ] ")); [apply K; cbn; lia | assumption | assumption|].
  apply (TArray [] (lit "true, false ") _ (lit " ")); [assumption | | assumption]. apply (TEMore (lit "true") _ (lit " ") (lit "false ")); [apply TTrue | assumption|]. apply TEOne. now apply (TFalse (lit " ")).
Qed.
Example sample_value : oak_json_parse (fun _ => false) (fun _ => false) text_f64 (encode sample) =
  Some (Ok (AArray [ANumber (lit "1") (2, 3);
    AObject [(lit "a", (6, 9), ANull (12, 17), (6, 17)); (lit "b", (19, 22), AArray [ABool true (24, 28); ABool false (30, 36)] (23, 38), (19, 38))] (4, 40)] (0, 41))).
Proof. vm_compute. reflexivity. Qed.

Definition sample_ast : ast str := AObject [(lit "k", (0, 0), AArray [AString (lit "x\n") (0, 0); ANumber (lit "2") (0, 0)] (0, 0), (0, 0))] (0, 0).
Example sample_printable : printable str text_f64 (fun s => s) sample_ast.
Proof.
  assert (P : forall s, forallb is_scalarb s = true -> encode s = s -> escaped_body s -> last s 0%Z <> 34%Z -> printable_string s) by (intros s H1 H2 H3 H4; exists s; split; [now symmetry|]; split; [now apply scalars_by|]; now split).
  split; [apply P; [reflexivity | reflexivity | apply EBPlain; [discriminate | discriminate | constructor] | discriminate]|]. split; [|exact I]. split; [apply P; [reflexivity | reflexivity | | discriminate]|].
  - apply EBPlain; [discriminate | discriminate|]. apply EBEscape. constructor.
  - split; [split; [exact two_number | reflexivity] | exact I].
Qed.
Example sample_printed : to_string str (fun s => s) sample_ast = lit "{""k"":[""x\n"",2]}" /\ match oak_json_parse (fun _ => false) (fun _ => false) text_f64 (to_string str (fun s => s) sample_ast) with Some (Ok a) => erase a = sample_ast | _ => False end.
Proof. split; [reflexivity | vm_compute; reflexivity]. Qed.
Example sample_get : value_get str (AObject [(lit "a", (0, 0), ANumber (lit "1") (0, 0), (0, 0)); (lit "a", (0, 0), ANumber (lit "2") (0, 0), (0, 0))] (0, 0)) (lit "a") = Some (ANumber (lit "1") (0, 0)).
Proof. reflexivity. Qed.
