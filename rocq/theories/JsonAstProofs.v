(** Values of JSON texts. *)
From Verif Require Import Base Utf8 Utf8Facts EditModel LexModel LexSpec CursorModel CursorSpec CursorProofs RopeModel TreeModel TreeSpec TreeProofs ParserModel ParserSpec ParserProofs.
From Verif Require Import JsonSpec JsonModel JsonLangSpec JsonLexProofs JsonParseProofs JsonTextProofs JsonDocProofs JsonAstModel JsonAstSpec.

(** ** Texts, the pieces and the trees they become *)
Definition wsp (w : list Z) : list piece := match w with [] => [] | _ => [(Some KWhitespace, w)] end.
Definition tok (k : nat) (s w : list Z) : list piece := (Some k, s) :: wsp w.
Definition leafp (p : piece) : green := GLeaf (match fst p with Some k => k | None => 0 end) (length (encode (snd p))) None.
Definition leaves (ps : list piece) : list green := map leafp ps.
Definition mk (kind : nat) (ch : list green) : green := GNode kind (sum_len ch) ch.

Inductive cval : list Z -> list piece -> green -> json -> Prop :=
| CNull w : ws w -> cval (lit "null" ++ w) (tok KNullLit (lit "null") w) (mk KNull (leaves (tok KNullLit (lit "null") w))) JNull
| CTrue : cval (lit "true") (tok KBooleanLit (lit "true") []) (mk KBoolean (leaves (tok KBooleanLit (lit "true") []))) (JBool true)
| CFalse w : ws w -> cval (lit "false" ++ w) (tok KBooleanLit (lit "false") w) (mk KBoolean (leaves (tok KBooleanLit (lit "false") w))) (JBool false)
| CNumber s : jnumber s -> cval s (tok KNumberLit s []) (mk KNumber (leaves (tok KNumberLit s []))) (JNumber s)
| CString b : ckey b -> cval (quoted b) (tok KStringLit (quoted b) []) (mk KString (leaves (tok KStringLit (quoted b) []))) (JString b)
| CArray0 w1 w2 : ws w1 -> ws w2 -> cval (lit "[" ++ w1 ++ lit "]" ++ w2) (tok KLBracket (lit "[") w1 ++ tok KRBracket (lit "]") w2)
    (mk KArray (leaves (tok KLBracket (lit "[") w1) ++ leaves (tok KRBracket (lit "]") w2))) (JArray [])
| CArray w1 s ps gs l w2 : ws w1 -> celems s ps gs l -> ws w2 -> cval (lit "[" ++ w1 ++ s ++ lit "]" ++ w2) (tok KLBracket (lit "[") w1 ++ ps ++ tok KRBracket (lit "]") w2)
    (mk KArray (leaves (tok KLBracket (lit "[") w1) ++ gs ++ leaves (tok KRBracket (lit "]") w2))) (JArray l)
| CObject0 w1 w2 : ws w1 -> ws w2 -> cval (lit "{" ++ w1 ++ lit "}" ++ w2) (tok KLBrace (lit "{") w1 ++ tok KRBrace (lit "}") w2)
    (mk KObject (leaves (tok KLBrace (lit "{") w1) ++ leaves (tok KRBrace (lit "}") w2))) (JObject [])
| CObject w1 s ps gs l w2 : ws w1 -> cmembs s ps gs l -> ws w2 -> cval (lit "{" ++ w1 ++ s ++ lit "}" ++ w2) (tok KLBrace (lit "{") w1 ++ ps ++ tok KRBrace (lit "}") w2)
    (mk KObject (leaves (tok KLBrace (lit "{") w1) ++ gs ++ leaves (tok KRBrace (lit "}") w2))) (JObject l)
with ckey : list Z -> Prop :=
| CKey b : escaped_body b -> last b 0%Z <> 34%Z -> Forall is_scalar b -> ckey b
with celems : list Z -> list piece -> list green -> list json -> Prop :=
| CEOne s ps g v : cval s ps g v -> celems s ps [g] [v]
| CEMore s ps g v w r qs gs l : cval s ps g v -> ws w -> celems r qs gs l ->
    celems (s ++ lit "," ++ w ++ r) (ps ++ tok KComma (lit ",") w ++ qs) (g :: leaves (tok KComma (lit ",") w) ++ gs) (v :: l)
with cmemb : list Z -> list piece -> green -> list Z -> json -> Prop :=
| CMemb k w1 w2 s ps g v : ckey k -> ws w1 -> ws w2 -> cval s ps g v ->
    cmemb (quoted k ++ w1 ++ lit ":" ++ w2 ++ s) (tok KStringLit (quoted k) w1 ++ tok KColon (lit ":") w2 ++ ps)
      (mk KEntry (leaves (tok KStringLit (quoted k) w1) ++ leaves (tok KColon (lit ":") w2) ++ [g])) k v
with cmembs : list Z -> list piece -> list green -> list (list Z * json) -> Prop :=
| CMOne s ps g k v : cmemb s ps g k v -> cmembs s ps [g] [(k, v)]
| CMMore s ps g k v w r qs gs l : cmemb s ps g k v -> ws w -> cmembs r qs gs l ->
    cmembs (s ++ lit "," ++ w ++ r) (ps ++ tok KComma (lit ",") w ++ qs) (g :: leaves (tok KComma (lit ",") w) ++ gs) ((k, v) :: l).
Scheme cval_ind2 := Induction for cval Sort Prop
with celems_ind2 := Induction for celems Sort Prop
with cmemb_ind2 := Induction for cmemb Sort Prop
with cmembs_ind2 := Induction for cmembs Sort Prop.
Combined Scheme cval_mind from cval_ind2, celems_ind2, cmemb_ind2, cmembs_ind2.

(** ** The parser builds these trees *)
Definition head_ok (r : list token) : Prop := match r with [] => True | t :: _ => ignored (tk_kind t) = false end.
Definition leaft (t : token) : green := GLeaf (tk_kind t) (tk_end t - tk_start t) None.

Lemma spans_app p q : forall off, spans off (p ++ q) = spans off p ++ spans (off + length (encode (text_of_pieces p))) q.
Proof.
  induction p as [| [k s] p IH]; intros off; cbn [app spans text_of_pieces flat_map snd]; [now rewrite Nat.add_0_r|]. fold (text_of_pieces p). rewrite IH, app_assoc. do 2 f_equal. rewrite encode_app, app_length. lia.
Qed.
Lemma leaves_app p q : leaves (p ++ q) = leaves p ++ leaves q.
Proof. apply map_app. Qed.

Section Takes.
  Variable (cfg : json_config) (toks : list token).
  Hypothesis Hfit : lengths_fit toks.
  Hypothesis Hsum : (Z.of_nat (list_sum (map (fun t => snd (tok_yield t)) toks)) < 2 ^ 32)%Z.
  Notation ok := (ok toks).

  Definition moves (s s' : pstate) (r : list token) (gs : list green) : Prop :=
    ok s' /\ to_come s' = r /\ (exists l, ps_sink s' = ps_sink s ++ l /\ map snd l = gs).

  Lemma moves_trans a b c r1 r2 g1 g2 : moves a b r1 g1 -> moves b c r2 g2 -> moves a c r2 (g1 ++ g2).
  Proof.
    intros (_ & _ & l1 & L1 & M1) (O & R & l2 & L2 & M2). split; [assumption|]. split; [assumption|]. exists (l1 ++ l2). split; [now rewrite L2, L1, app_assoc | now rewrite map_app, M1, M2].
  Qed.

  Lemma front s t q : ok s -> to_come s = t :: q -> ps_current s = Some t /\ ps_not_at_end s = true /\ (forall k, at_kind s k = (tk_kind t =? k)) /\ json_skip s = s /\ ignored (tk_kind t) = false.
  Proof.
    intros (G & S' & _) E. assert (C : ps_current s = Some t).
    { destruct (ps_current s) as [t'|] eqn:C; [pose proof (to_come_cons s t' C) as C'; rewrite E in C'; injection C' as -> _; reflexivity|]. unfold ps_current in C. apply nth_error_None in C. unfold to_come in E. rewrite skipn_all2 in E by assumption. discriminate. }
    split; [assumption|]. assert (I : ignored (tk_kind t) = false) by (unfold settled in S'; rewrite E in S'; exact S'). split; [|split; [|split; [now apply skip_rest | assumption]]].
    - rewrite (end_rest s S'). unfold rest. rewrite E. unfold kinds. cbn [map filter]. now rewrite I.
    - intros k. unfold at_kind, peek_kind. now rewrite C.
  Qed.

  Lemma skip_leaves n : forall s seg r, lengths_fit (ps_toks s) -> to_come s = seg ++ r -> Forall (fun t => ignored (tk_kind t) = true) seg -> head_ok r -> length seg <= n ->
    to_come (skip_trivia_loop ignored n s) = r /\ exists l, ps_sink (skip_trivia_loop ignored n s) = ps_sink s ++ l /\ map snd l = map leaft seg.
  Proof.
    assert (Stop : forall n s r, to_come s = r -> head_ok r -> skip_trivia_loop ignored n s = s).
    { intros [| m] s r E H; [reflexivity|]. cbn [skip_trivia_loop]. destruct (ps_current s) as [t|] eqn:C; [|reflexivity]. pose proof (to_come_cons s t C) as C'. rewrite E in C'. rewrite C' in H. cbn [head_ok] in H. now rewrite H. }
    induction n as [| n IH]; intros s seg r Hf E F H L.
    - destruct seg; [|cbn in L; lia]. rewrite (Stop 0 s r E H). split; [exact E|]. exists []. now rewrite app_nil_r.
    - destruct seg as [| t seg]; [rewrite (Stop (S n) s r E H); split; [exact E|]; exists []; now rewrite app_nil_r|]. inversion F as [| ? ? F1 F2]; subst. cbn [skip_trivia_loop].
      assert (C : ps_current s = Some t).
      { destruct (ps_current s) as [t'|] eqn:C; [pose proof (to_come_cons s t' C) as C'; rewrite E in C'; injection C' as -> _; reflexivity|]. unfold ps_current in C. apply nth_error_None in C. unfold to_come in E. rewrite skipn_all2 in E by assumption. discriminate. }
      rewrite C, F1. cbv zeta. pose proof (to_come_cons s t C) as T. rewrite E in T. injection T as T.
      destruct (IH (set_index (push_leaf s t) (S (ps_index (push_leaf s t)))) seg r Hf (eq_sym T) F2 H ltac:(cbn in L; lia)) as (A & l & B & M). split; [exact A|].
      cbn [set_index push_leaf set_sink ps_sink] in B. eexists. split; [rewrite B, <- app_assoc; reflexivity|]. cbn [app map snd]. rewrite M. f_equal. unfold leaft. f_equal. exact (fit_nth _ Hf _ _ C).
  Qed.

  Lemma bump_moves s t seg r : ok s -> to_come s = t :: seg ++ r -> Forall (fun t => ignored (tk_kind t) = true) seg -> head_ok r -> moves s (bump ignored s) r (map leaft (t :: seg)).
  Proof.
    intros O E F H. destruct (front s t _ O E) as (C & _). pose proof O as (G & S' & I'). destruct (bump_push ignored s) as (_ & _ & _ & _ & In1 & _). split.
    { split; [now apply bump_good|]. split; [now apply bump_settled | congruence]. }
    unfold bump, ps_advance, skip_trivia. rewrite C. pose proof (to_come_cons s t C) as T. rewrite E in T. injection T as T.
    assert (Hf : lengths_fit (ps_toks s)) by (rewrite (proj1 G); exact Hfit).
    destruct (skip_leaves (length (ps_toks (set_index (push_leaf s t) (S (ps_index (push_leaf s t))))) - ps_index (set_index (push_leaf s t) (S (ps_index (push_leaf s t))))) (set_index (push_leaf s t) (S (ps_index (push_leaf s t)))) seg r Hf (eq_sym T) F H) as (A & l & B & M).
    { assert (length (seg ++ r) = length (ps_toks s) - S (ps_index s)) by (rewrite T; exact (skipn_length (S (ps_index s)) (ps_toks s))). rewrite app_length in H0. cbn. lia. }
    split; [exact A|]. cbn [set_index push_leaf set_sink ps_sink] in B. eexists. split; [rewrite B, <- app_assoc; reflexivity|]. cbn [app map snd]. rewrite M. f_equal. unfold leaft. f_equal. exact (fit_nth _ Hf _ _ C).
  Qed.

  Lemma tok_spans off k x w : spans off (tok k x w) = Token k off (off + length (encode x)) :: match w with [] => [] | _ => [Token KWhitespace (off + length (encode x)) (off + length (encode x) + length (encode w))] end.
  Proof. unfold tok, wsp. destruct w; reflexivity. Qed.
  Lemma bump_tok s off k x w r : ok s -> to_come s = spans off (tok k x w) ++ r -> head_ok r -> moves s (bump ignored s) r (leaves (tok k x w)).
  Proof.
    intros O E H. rewrite tok_spans in E. cbn [app] in E. replace (leaves (tok k x w)) with (map leaft (spans off (tok k x w))).
    - rewrite tok_spans. apply (bump_moves s _ _ r O E); [destruct w; constructor; [reflexivity | constructor] | assumption].
    - unfold leaves, leaft, leafp, tok, wsp. destruct w; cbn [spans app map fst snd tk_kind tk_start tk_end]; repeat f_equal; lia.
  Qed.
  Lemma eat_tok s off k x w r : ok s -> to_come s = spans off (tok k x w) ++ r -> head_ok r -> eat ignored k s = (true, bump ignored s) /\ moves s (bump ignored s) r (leaves (tok k x w)).
  Proof.
    intros O E H. split; [|now apply (bump_tok s off)]. rewrite tok_spans in E. destruct (front s _ _ O E) as (_ & _ & A & _). unfold eat. rewrite A. cbn [tk_kind]. now rewrite Nat.eqb_refl.
  Qed.

  Definition takes (P : parsing) (ps : list piece) (gs : list green) : Prop :=
    forall s off r, ok s -> to_come s = spans off ps ++ r -> head_ok r -> exists s', P s = Some (true, s') /\ moves s s' r gs.

  Lemma node_takes kind P ps gs : takes P ps gs -> takes (node kind P) ps [mk kind gs].
  Proof.
    intros H s off r O E Hr. unfold node, try_reuse. rewrite (proj2 (proj2 O)). destruct (H s off r O E Hr) as (s2 & -> & O2 & R2 & l & L2 & M2).
    destruct O2 as (G2 & S2 & I2). pose proof G2 as (Tk & Ix & Bt & Wd & Yd).
    assert (N : new_node kind (map snd (skipn (length (ps_sink s)) (ps_sink s2))) = Some (mk kind gs)).
    { unfold new_node. rewrite L2, skipn_app, skipn_all, Nat.sub_diag. cbn [app skipn]. rewrite M2. unfold sink_trees in *. rewrite L2, map_app in Bt, Wd. rewrite map_app, list_sum_app in Wd. apply Forall_app in Bt as [_ Bt]. rewrite M2 in Bt, Wd. rewrite sum_len_width by assumption.
      assert (F : list_sum (map (fun t => snd (tok_yield t)) (firstn (ps_index s2) toks)) <= list_sum (map (fun t => snd (tok_yield t)) toks)) by (rewrite <- (firstn_skipn (ps_index s2) toks) at 2; rewrite map_app, list_sum_app; lia).
      unfold fits_u32. destruct (N.ltb_spec (N.of_nat (list_sum (map width gs))) 4294967296); [unfold mk; now rewrite sum_len_width|]. exfalso. clear - Wd F Hsum H0. lia. }
    unfold finish_at. cbn [checkpoint snd]. assert (length (ps_sink s2) <? length (ps_sink s) = false) as -> by (apply Nat.ltb_ge; rewrite L2, app_length; lia). rewrite N.
    eexists. split; [reflexivity|]. assert (F : finish_at s2 (0, length (ps_sink s)) kind = Some ((Some (ps_next s2), mk kind gs), PState (ps_toks s2) (ps_index s2) (firstn (length (ps_sink s)) (ps_sink s2) ++ [(Some (ps_next s2), mk kind gs)]) (S (ps_next s2)) (ps_errs s2) (ps_srclen s2) (ps_inc s2))).
    { unfold finish_at. cbn [snd]. assert (length (ps_sink s2) <? length (ps_sink s) = false) as -> by (apply Nat.ltb_ge; rewrite L2, app_length; lia). now rewrite N. }
    destruct (finish_good ignored toks Hfit True s2 _ _ _ _ G2 F) as (G3 & _). split; [split; [exact G3|]; split; [exact S2 | exact I2]|]. split; [exact R2|].
    exists [(Some (ps_next s2), mk kind gs)]. split; [|reflexivity]. cbn [ps_sink]. rewrite L2, firstn_app, firstn_all, Nat.sub_diag. cbn [firstn]. now rewrite app_nil_r.
  Qed.

  (** Pieces that begin with a token of kind [k]. *)
  Definition begins (k : nat) (ps : list piece) : Prop := exists x q, ps = (Some k, x) :: q.
  Definition starter (close : nat) (ps : list piece) : Prop := exists k, begins k ps /\ ignored k = false /\ k <> close /\ k <> KEof.

  Lemma begins_front k ps off r : begins k ps -> exists e q, spans off ps ++ r = Token k off e :: q.
  Proof. intros (x & q & ->). eexists. eexists. reflexivity. Qed.

  (** [ps] are items with commas between them; [n] rounds are enough. *)
  Definition loops (close : nat) (item : parsing) (ps : list piece) (gs : list green) : Prop :=
    starter close ps /\ forall n, length ps < n ->
    (forall s off e1 e2 r, ok s -> to_come s = spans off ps ++ Token close e1 e2 :: r -> exists s', items_loop cfg close item n true s = Some (true, s') /\ moves s s' (Token close e1 e2 :: r) gs) /\
    (forall w s off e1 e2 r, ok s -> to_come s = spans off (tok KComma (lit ",") w ++ ps) ++ Token close e1 e2 :: r -> exists s', items_loop cfg close item n false s = Some (true, s') /\ moves s s' (Token close e1 e2 :: r) (leaves (tok KComma (lit ",") w) ++ gs)).

  Lemma loop_step close item ps gs : takes item ps gs -> starter close ps -> close <> KComma -> ignored close = false -> forall n qs hs,
    (forall s off e1 e2 r, ok s -> to_come s = spans off qs ++ Token close e1 e2 :: r -> exists s', items_loop cfg close item n false s = Some (true, s') /\ moves s s' (Token close e1 e2 :: r) hs) -> (qs = [] \/ starter close qs) ->
    (forall s off e1 e2 r, ok s -> to_come s = spans off (ps ++ qs) ++ Token close e1 e2 :: r -> exists s', items_loop cfg close item (S n) true s = Some (true, s') /\ moves s s' (Token close e1 e2 :: r) (gs ++ hs)) /\
    (forall w s off e1 e2 r, ok s -> to_come s = spans off (tok KComma (lit ",") w ++ ps ++ qs) ++ Token close e1 e2 :: r -> exists s', items_loop cfg close item (S n) false s = Some (true, s') /\ moves s s' (Token close e1 e2 :: r) (leaves (tok KComma (lit ",") w) ++ gs ++ hs)).
  Proof.
    intros T (k & B & Ik & Nc & Ne) Cc Ic n qs hs L Hq.
    assert (Next : forall s off e1 e2 r, ok s -> to_come s = spans off (ps ++ qs) ++ Token close e1 e2 :: r -> exists s', match item s with None => None | Some (false, s3) => Some (false, s3) | Some (true, s3) => items_loop cfg close item n false (json_skip s3) end = Some (true, s') /\ moves s s' (Token close e1 e2 :: r) (gs ++ hs)).
    { intros s off e1 e2 r O E. rewrite spans_app, <- app_assoc in E. edestruct (T s off _ O E) as (s3 & -> & M3).
      { destruct Hq as [-> | (k2 & (x & q & ->) & I2 & _)]; [exact Ic | exact I2]. }
      pose proof M3 as (O3 & R3 & _). rewrite (skip_rest s3 (proj1 (proj2 O3))). edestruct (L s3 _ e1 e2 r O3 R3) as (s' & -> & M4). exists s'. split; [reflexivity | exact (moves_trans _ _ _ _ _ _ _ M3 M4)]. }
    split.
    - intros s off e1 e2 r O E. cbn [items_loop]. assert (B' : exists e q, spans off (ps ++ qs) ++ Token close e1 e2 :: r = Token k off e :: q) by (destruct B as (x & q & ->); eexists; eexists; reflexivity). destruct B' as (e & q & B').
      rewrite B' in E. destruct (front s _ _ O E) as (_ & -> & A & -> & _). rewrite !A. cbn [tk_kind]. destruct (Nat.eqb_spec k close); [contradiction|]. destruct (Nat.eqb_spec k KEof); [contradiction|]. rewrite <- B' in E. exact (Next s off e1 e2 r O E).
    - intros w s off e1 e2 r O E. cbn [items_loop]. assert (E0 := E). rewrite spans_app, tok_spans in E0. cbn [app] in E0. destruct (front s _ _ O E0) as (_ & -> & A & -> & _). rewrite !A. cbn [tk_kind]. destruct (Nat.eqb_spec KComma close); [congruence|]. change (KComma =? KEof) with false. cbv iota.
      rewrite spans_app, <- app_assoc in E. edestruct (eat_tok s off KComma (lit ",") w _ O E) as (-> & M). { destruct B as (x & q & ->). exact Ik. }
      pose proof M as (Ob & Rb & _). cbv zeta iota. assert (B' : exists a e q, to_come (bump ignored s) = Token k a e :: q) by (rewrite Rb; destruct B as (x & q & ->); eexists; eexists; eexists; reflexivity). destruct B' as (a & e & q & B'). destruct (front _ _ _ Ob B') as (_ & _ & A2 & -> & _). rewrite A2. cbn [tk_kind]. destruct (Nat.eqb_spec k close); [contradiction|].
      edestruct (Next _ _ e1 e2 r Ob Rb) as (s' & -> & M4). exists s'. split; [reflexivity | exact (moves_trans _ _ _ _ _ _ _ M M4)].
  Qed.

  Lemma loops_one close item ps g : close <> KComma -> ignored close = false -> takes item ps [g] -> starter close ps -> loops close item ps [g].
  Proof.
    intros Cc Ic T St. split; [assumption|]. intros n Hn. destruct n as [| n]; [lia|]. destruct n as [| n]; [destruct St as (k & (x & q & ->) & _); cbn in Hn; lia|].
    edestruct (loop_step close item ps [g] T St Cc Ic (S n) [] []) as (A & B); [|now left | rewrite app_nil_r in *; split; [exact A | exact B]].
    intros s off e1 e2 r O E. cbn [spans app] in E. cbn [items_loop]. destruct (front s _ _ O E) as (_ & -> & A & -> & _). rewrite A. cbn [tk_kind]. rewrite Nat.eqb_refl. exists s. split; [reflexivity|]. split; [assumption|]. split; [assumption|]. exists []. now rewrite app_nil_r.
  Qed.
  Lemma loops_more close item ps g w qs gs : close <> KComma -> ignored close = false -> takes item ps [g] -> starter close ps -> loops close item qs gs -> loops close item (ps ++ tok KComma (lit ",") w ++ qs) (g :: leaves (tok KComma (lit ",") w) ++ gs).
  Proof.
    intros Cc Ic T St (St2 & L). split; [destruct St as (k & (x & q & ->) & H); exists k; split; [eexists; eexists; reflexivity | exact H]|]. intros n Hn. destruct n as [| n]; [lia|].
    assert (Hn' : length qs < n). { destruct St as (k & (x & q & ->) & _). rewrite !app_length in Hn. cbn in Hn. lia. }
    assert (Sq : starter close (tok KComma (lit ",") w ++ qs)). { exists KComma. split; [eexists; eexists; reflexivity|]. split; [reflexivity|]. split; [now apply not_eq_sym | discriminate]. }
    destruct (L n Hn') as (_ & L2). pose proof (loop_step close item ps [g] T St Cc Ic n (tok KComma (lit ",") w ++ qs) (leaves (tok KComma (lit ",") w) ++ gs) (L2 w) (or_intror Sq)) as R. cbn [app] in R. cbn [app]. exact R.
  Qed.

  Lemma spans_length ps off : Forall (fun p : piece => fst p <> None) ps -> length (spans off ps) = length ps.
  Proof. intros F. revert off. induction F as [| [k s] r H _ IH]; intros off; [reflexivity|]. cbn [fst] in H. destruct k; [|contradiction]. cbn [spans app length]. now rewrite IH. Qed.
  Lemma come_length s : ok s -> length (to_come s) <= length toks.
  Proof. intros (G & _). unfold to_come. rewrite skipn_length, (proj1 G). lia. Qed.

  Lemma items_take open close item w1 w2 a b ps gs : open <> close -> close <> KComma -> ignored close = false -> Forall (fun p : piece => fst p <> None) ps -> loops close item ps gs -> takes (items cfg open close item) (tok open a w1 ++ ps ++ tok close b w2) (leaves (tok open a w1) ++ gs ++ leaves (tok close b w2)).
  Proof.
    intros Oc Cc Ic F ((k & B & Ik & _) & L) s off r O E Hr. unfold items. rewrite !spans_app, <- !app_assoc in E. match type of E with context [spans ?o (tok close b w2)] => set (o3 := o) in E end. rewrite (tok_spans o3 close) in E.
    edestruct (eat_tok s off open a w1 _ O E) as (-> & M1). { destruct B as (x & q & ->). exact Ik. }
    pose proof M1 as (O1 & R1 & _). cbn [app] in R1.
    assert (Len : length ps < S (length (ps_toks (bump ignored s)))). { pose proof (come_length s O) as C. rewrite E, !app_length, (spans_length ps) in C by assumption. rewrite (proj1 (proj1 O1)). lia. }
    destruct (L _ Len) as (L1 & _). edestruct (L1 _ _ _ _ _ O1 R1) as (s2 & -> & M2). pose proof M2 as (O2 & R2 & _).
    destruct (eat_tok s2 o3 close b w2 r O2) as (-> & M3); [rewrite tok_spans; exact R2 | assumption|]. eexists. split; [reflexivity|]. exact (moves_trans _ _ _ _ _ _ _ M1 (moves_trans _ _ _ _ _ _ _ M2 M3)).
  Qed.
  Lemma items_take0 open close item w1 w2 a b : open <> close -> ignored close = false -> takes (items cfg open close item) (tok open a w1 ++ tok close b w2) (leaves (tok open a w1) ++ leaves (tok close b w2)).
  Proof.
    intros Oc Ic s off r O E Hr. unfold items. rewrite !spans_app, <- !app_assoc in E. edestruct (eat_tok s off open a w1 _ O E) as (-> & M1). { rewrite tok_spans. exact Ic. }
    pose proof M1 as (O1 & R1 & _). cbn [items_loop]. assert (R1' := R1). rewrite tok_spans in R1'. cbn [app] in R1'. destruct (front _ _ _ O1 R1') as (_ & -> & A & -> & _). rewrite A. cbn [tk_kind]. rewrite Nat.eqb_refl.
    edestruct (eat_tok _ _ close b w2 r O1 R1 Hr) as (-> & M3). eexists. split; [reflexivity|]. exact (moves_trans _ _ _ _ _ _ _ M1 M3).
  Qed.

  Lemma entry_takes value k w1 a w2 ps g kv : ignored kv = false -> begins kv ps -> takes value ps [g] ->
    takes (entry cfg value) (tok KStringLit k w1 ++ tok KColon a w2 ++ ps) [mk KEntry (leaves (tok KStringLit k w1) ++ leaves (tok KColon a w2) ++ [g])].
  Proof.
    intros Ik B T. unfold entry. apply node_takes. intros s off r O E Hr. rewrite !spans_app, <- !app_assoc in E. assert (E0 := E). rewrite tok_spans in E0. cbn [app] in E0. destruct (front s _ _ O E0) as (_ & _ & A & _). rewrite A. cbn [tk_kind Nat.eqb orb].
    change (KStringLit =? KStringLit) with true. cbn [orb].
    pose proof (bump_tok s off KStringLit k w1 _ O E) as M1. lapply M1; [clear M1; intros M1 | rewrite tok_spans; reflexivity].
    pose proof M1 as (O1 & R1 & _). rewrite (skip_rest _ (proj1 (proj2 O1))). edestruct (eat_tok _ _ KColon a w2 _ O1 R1) as (-> & M2). { destruct B as (x & q & ->). exact Ik. }
    pose proof M2 as (O2 & R2 & _). rewrite (skip_rest _ (proj1 (proj2 O2))). edestruct (T _ _ r O2 R2 Hr) as (s' & -> & M3). exists s'. split; [reflexivity|]. exact (moves_trans _ _ _ _ _ _ _ M1 (moves_trans _ _ _ _ _ _ _ M2 M3)).
  Qed.

  Lemma value_takes k v ps gs f : begins k ps -> ignored k = false -> value_kind k = Some v ->
    takes (fun s2 => if v =? KObject then items cfg KLBrace KRBrace (entry cfg (parse_value cfg f)) s2 else if v =? KArray then items cfg KLBracket KRBracket (parse_value cfg f) s2 else Some (true, bump ignored s2)) ps gs ->
    takes (parse_value cfg (S f)) ps [mk v gs].
  Proof.
    intros B Ik Ev T. pose proof (node_takes v _ ps gs T) as N. intros s off r O E Hr. assert (B' : exists e q, to_come s = Token k off e :: q) by (rewrite E; destruct B as (x & q & ->); eexists; eexists; reflexivity). destruct B' as (e & q & B').
    cbn [parse_value]. destruct (front s _ _ O B') as (C & _ & A & -> & _). rewrite C. cbn [tk_kind]. assert (k =? KEof = false) as -> by (apply Nat.eqb_neq; intros ->; discriminate). rewrite Ev. exact (N s off r O E Hr).
  Qed.

  Lemma cval_some : (forall s ps g v, cval s ps g v -> Forall (fun p : piece => fst p <> None) ps) /\ (forall s ps g v, celems s ps g v -> Forall (fun p : piece => fst p <> None) ps) /\
    (forall s ps g k v, cmemb s ps g k v -> Forall (fun p : piece => fst p <> None) ps) /\ (forall s ps g v, cmembs s ps g v -> Forall (fun p : piece => fst p <> None) ps).
  Proof.
    assert (T : forall k s w, Forall (fun p : piece => fst p <> None) (tok k s w)) by (intros k s [| c w]; unfold tok, wsp; repeat (apply Forall_cons; [discriminate|]); apply Forall_nil).
    apply cval_mind; intros; rewrite ?Forall_app; auto 10.
  Qed.

  Lemma cval_begins : forall s ps g v, cval s ps g v -> exists k x, begins k ps /\ ignored k = false /\ value_kind k = Some x.
  Proof. intros s ps g v []; (eexists; eexists; split; [eexists; eexists; reflexivity | split; reflexivity]). Qed.
  Lemma value_starter s ps g v : cval s ps g v -> starter KRBracket ps.
  Proof. intros C. destruct (cval_begins _ _ _ _ C) as (k & x & B & Ik & Ev). exists k. split; [assumption|]. split; [assumption|]. split; intros ->; discriminate. Qed.
  Lemma memb_starter s ps g k v : cmemb s ps g k v -> starter KRBrace ps.
  Proof. intros []. exists KStringLit. split; [eexists; eexists; reflexivity|]. split; [reflexivity|]. split; discriminate. Qed.

  Lemma cval_parse :
    (forall s ps g v, cval s ps g v -> forall fuel, length ps < fuel -> takes (parse_value cfg fuel) ps [g]) /\
    (forall s ps gs l, celems s ps gs l -> forall fuel, length ps < fuel -> loops KRBracket (parse_value cfg fuel) ps gs) /\
    (forall s ps g k v, cmemb s ps g k v -> forall fuel, length ps < fuel -> takes (entry cfg (parse_value cfg fuel)) ps [g]) /\
    (forall s ps gs l, cmembs s ps gs l -> forall fuel, length ps < fuel -> loops KRBrace (entry cfg (parse_value cfg fuel)) ps gs).
  Proof.
    assert (Sc : forall k v x w fuel, ignored k = false -> value_kind k = Some v -> v =? KObject = false -> v =? KArray = false -> length (tok k x w) < fuel -> takes (parse_value cfg fuel) (tok k x w) [mk v (leaves (tok k x w))]).
    { intros k v x w fuel Ik Ev N1 N2 L. destruct fuel as [| f]; [lia|]. apply (value_takes k v); [eexists; eexists; reflexivity | assumption | assumption|]. rewrite N1, N2. intros s off r O E Hr. eexists. split; [reflexivity|]. now apply (bump_tok s off). }
    apply cval_mind.
    - intros w _ fuel L. now apply Sc.
    - intros fuel L. now apply Sc.
    - intros w _ fuel L. now apply Sc.
    - intros s _ fuel L. now apply Sc.
    - intros b _ fuel L. now apply Sc.
    - intros w1 w2 _ _ [| f] L; [lia|]. apply (value_takes KLBracket KArray); [eexists; eexists; reflexivity | reflexivity | reflexivity|]. change (KArray =? KObject) with false. change (KArray =? KArray) with true. cbv iota. apply items_take0; [discriminate | reflexivity].
    - intros w1 s ps gs l w2 _ C IH _ [| f] L; [lia|]. apply (value_takes KLBracket KArray); [eexists; eexists; reflexivity | reflexivity | reflexivity|]. change (KArray =? KObject) with false. change (KArray =? KArray) with true. cbv iota. apply items_take; [discriminate | discriminate | reflexivity | exact (proj1 (proj2 cval_some) _ _ _ _ C)|]. apply IH. rewrite !app_length in L. cbn [length tok] in L. lia.
    - intros w1 w2 _ _ [| f] L; [lia|]. apply (value_takes KLBrace KObject); [eexists; eexists; reflexivity | reflexivity | reflexivity|]. change (KObject =? KObject) with true. cbv iota. apply items_take0; [discriminate | reflexivity].
    - intros w1 s ps gs l w2 _ C IH _ [| f] L; [lia|]. apply (value_takes KLBrace KObject); [eexists; eexists; reflexivity | reflexivity | reflexivity|]. change (KObject =? KObject) with true. cbv iota. apply items_take; [discriminate | discriminate | reflexivity | exact (proj2 (proj2 (proj2 cval_some)) _ _ _ _ C)|]. apply IH. rewrite !app_length in L. cbn [length tok] in L. lia.
    - intros s ps g v C IH fuel L. apply loops_one; [discriminate | reflexivity | now apply IH | exact (value_starter _ _ _ _ C)].
    - intros s ps g v w r qs gs l C IH _ _ IHl fuel L. rewrite !app_length in L. apply loops_more; [discriminate | reflexivity | apply IH; lia | exact (value_starter _ _ _ _ C) | apply IHl; lia].
    - intros k w1 w2 s ps g v _ _ _ C IH fuel L. rewrite !app_length in L. destruct (cval_begins _ _ _ _ C) as (kv & x & B & Ik & _). apply (entry_takes _ _ _ _ _ _ _ kv); [assumption | assumption | apply IH; lia].
    - intros s ps g k v C IH fuel L. apply loops_one; [discriminate | reflexivity | now apply IH | exact (memb_starter _ _ _ _ _ C)].
    - intros s ps g k v w r qs gs l C IH _ _ IHl fuel L. rewrite !app_length in L. apply loops_more; [discriminate | reflexivity | apply IH; lia | exact (memb_starter _ _ _ _ _ C) | apply IHl; lia].
  Qed.
End Takes.
