(** JSON parsed with the tree of an earlier text and the edits since. *)
From Verif Require Import Base Utf8 Utf8Facts EditModel EditSpec EditProofs LexModel LexSpec CursorModel CursorSpec CursorProofs TreeModel TreeSpec TreeProofs ParserModel ParserSpec ParserProofs.
From Verif Require Import JsonSpec JsonModel JsonLangSpec JsonLexProofs JsonDocProofs JsonProps GramModel GramSpec GramProofs GramProps JsonCutProofs JsonIncSpec JsonIncProofs.

Section Inc.
  Variables (alpha alnum : Z -> bool) (cfg : json_config).

  Lemma plain_unpadded text : tiled alpha alnum cfg text -> starts_plain (jc_comments cfg) text -> unpadded ignored (json_tokens alpha alnum cfg text).
  Proof.
    intros G P. destruct (tiled_pieces alpha alnum cfg text G) as (ps & Et & F & Pp & El & W & Ne). rewrite El. unfold unpadded. destruct ps as [|[k s] ps]; [reflexivity|]. 
    destruct k as [k|]; [|inversion W as [|? ? Q]; subst; now destruct Q]. cbn [spans app].
    destruct (span_fact alpha alnum cfg ((Some k, s) :: ps) 0 (Token k 0 (0 + length (encode s)))) as [Q _]; [exact Pp | exact F | now left|]. cbn [tk_kind tk_start] in Q. cbn [tk_kind].
    rewrite Q. match goal with |- context [encode ?x] => replace (encode x) with text by exact Et end. cbn [Nat.sub]. destruct text as [|c text]; [reflexivity|]. cbn [nth]. cbn [starts_plain] in P. unfold space_byte. destruct (Z.eqb_spec c 32), (Z.eqb_spec c 9), (Z.eqb_spec c 10), (Z.eqb_spec c 13), (Z.eqb_spec c 47), (jc_comments cfg); try reflexivity; exfalso; apply P; unfold gap, is_ws; auto 6.
  Qed.
  Lemma plain_calm text es : tiled alpha alnum cfg (simultaneous text es) -> plain_edits (jc_comments cfg) text es -> calm ignored (json_tokens alpha alnum cfg (simultaneous text es)) es.
  Proof.
    intros G P t I K N. set (text2 := simultaneous text es) in *. destruct (tiled_pieces alpha alnum cfg text2 G) as (ps & Et & F & Pp & El & W & Ne). rewrite El in I. apply in_app_iff in I as [I|[<-|[]]]; [|discriminate].
    destruct (span_fact alpha alnum cfg ps 0 t Pp F I) as [Q _]. rewrite K, <- Et, Nat.sub_0_r in Q. destruct (nth_error text2 (tk_start t)) as [c|] eqn:E.
    - apply (P (tk_start t) c N E). rewrite (nth_error_nth _ _ _ E) in Q. unfold space_byte in Q. unfold gap, is_ws. destruct (Z.eqb_spec c 32), (Z.eqb_spec c 9), (Z.eqb_spec c 10), (Z.eqb_spec c 13), (Z.eqb_spec c 47), (jc_comments cfg); subst; auto 6; discriminate.
    - apply nth_error_None in E. rewrite nth_overflow in Q by exact E. discriminate.
  Qed.

  Lemma json_inc text1 es toks1 toks2 root1 : let text2 := simultaneous text1 es in
    valid text1 -> valid text2 -> (Z.of_nat (length text1) < 2 ^ 32)%Z -> (Z.of_nat (length text2) < 2 ^ 32)%Z ->
    json_lex alpha alnum (flat_source text1) cfg = Some toks1 -> tiles tok_span 0 toks1 (length text1) ->
    json_lex alpha alnum (flat_source text2) cfg = Some toks2 -> tiles tok_span 0 toks2 (length text2) ->
    starts_plain (jc_comments cfg) text1 -> json_parse alpha alnum cfg text1 None = Some (root1, []) ->
    Forall (edit_ok text1) es -> compatible es -> plain_edits (jc_comments cfg) text1 es ->
    json_parse alpha alnum cfg text2 (Some (root1, es)) = json_parse alpha alnum cfg text2 None.
  Proof.
    intros text2 V1 V2 L1 L2 X1 T1 X2 T2 Sp P1 Ok Cp Pe.
    assert (J1 : json_tokens alpha alnum cfg text1 = toks1) by (unfold json_tokens; now rewrite X1). assert (J2 : json_tokens alpha alnum cfg text2 = toks2) by (unfold json_tokens; now rewrite X2).
    assert (G1 : tiled alpha alnum cfg text1) by (split; [exact V1|]; split; [exact L1 | now rewrite J1]). assert (G2 : tiled alpha alnum cfg text2) by (split; [exact V2|]; split; [exact L2 | now rewrite J2]).
    pose proof (plain_unpadded text1 G1 Sp) as U. pose proof (plain_calm text1 es G2 Pe) as Ca. fold text2 in Ca. pose proof (json_local alpha alnum cfg) as LL.
    set (lex := json_tokens alpha alnum cfg) in *.
    (* the old tree *)
    unfold json_parse in P1. rewrite X1, <- J1 in P1. rewrite (ps_new_unpadded _ _ _ _ U) in P1. set (s0 := PState (lex text1) 0 [] 0 [] (length text1) None) in *. unfold run_parser in P1.
    destruct (parse_value cfg (S (length (ps_toks s0))) s0) as [[ok1 f1]|] eqn:Y1; [|discriminate].
    assert (F0 : full s0). { split; [apply (ll_fit _ _ _ _ LL); exact G1|]. split; [reflexivity|]. split; [|apply Nat.le_0_l]. unfold rem, to_come. cbn. unfold unpadded in U. destruct (lex text1); [exact Logic.I | exact U]. }
    destruct (value_models cfg _ s0 ok1 f1 F0 Logic.I Y1) as (new & e & R1 & Yr & _). pose proof (runs_full _ _ _ _ F0 R1) as F1. rewrite (ready_skip f1) in P1 by apply F1. destruct R1 as (Go & Sn & En). unfold finish_at, checkpoint in P1. cbn [snd] in P1.
    rewrite Sn in P1. cbn [ps_sink s0 app length Nat.ltb Nat.leb skipn firstn] in P1. destruct (new_node KRoot (map snd new)) as [g|] eqn:Ng; [|discriminate]. cbn [ps_errs] in P1. injection P1 as -> Ee. rewrite En in Ee. cbn [ps_errs s0 app] in Ee. destruct (Yr Ee) as [_ Y].
    (* the new tree *)
    unfold json_parse. rewrite X2, <- J2. fold lex. set (sf := ps_new ignored (lex text2) (length text2) []) in *.
    destruct (ps_new_ready ignored (lex text2) (length text2) [] (ll_fit _ _ _ _ LL text2 G2)) as (Rf & Tf & If & Lf & Ef). fold sf in Rf, Tf, If, Lf, Ef.
    set (si := set_inc sf (Some (inc_new root1 es))).
    assert (Si : sim lex text2 es root1 sf si). { repeat split; try assumption. exists (tc_new root1). split; [reflexivity | constructor]. }
    assert (To : exists r, json_parse alpha alnum cfg text2 None = Some r). { destruct V2 as (cs & F & E). rewrite E in *. destruct (json_parse_spec alpha alnum cfg cs F L2) as (ps & root & errs & lead & used & left & _ & _ & _ & Ep & _). eauto. }
    unfold json_parse in To. rewrite X2, <- J2 in To. fold lex in To. fold sf in To. unfold run_parser in *. change (ps_toks si) with (ps_toks sf). change (checkpoint si) with (checkpoint sf).
    destruct (parse_value cfg (S (length (ps_toks sf))) sf) as [[ok f3]|] eqn:Y3; [|destruct To; discriminate].
    destruct (value_beside cfg lex (tiled alpha alnum cfg) text1 text2 es root1 (map snd new) (rem f1) LL G1 G2 Ok Cp eq_refl Ca Ng Y (proj1 (proj2 (proj2 F1))) _ sf si ok f3 Si Rf Logic.I Y3) as (i3 & -> & S3).
    assert (R3 : ready ignored f3) by (apply (models_ready cfg lex (tiled alpha alnum cfg) text2 es root1 LL G2 any (parse_value cfg (S (length (ps_toks sf)))) value_gram sf si ok f3 (value_models cfg _) Si Rf Logic.I Y3)).
    rewrite (skip_sim lex text2 es root1 f3 i3 S3 R3). rewrite (ready_skip f3 R3) in *. unfold checkpoint in *.
    assert (Any : forall s a b n, finish_at s (a, n) KRoot = finish_at s (b, n) KRoot) by reflexivity. rewrite (Any i3 _ 0), (Any f3 _ 0). rewrite (Any f3 _ 0) in To.
    destruct (finish_at f3 (0, length (ps_sink sf)) KRoot) as [[itf f4]|] eqn:Fi; [|destruct To; discriminate].
    destruct (finish_sim lex text2 es root1 _ _ _ _ _ _ S3 Fi) as (n & i4 & -> & S4 & _). assert (E4 : ps_errs i4 = ps_errs f4) by apply S4. rewrite E4. destruct itf. reflexivity.
  Qed.

  Lemma json_tokens_tile text : is_json text -> valid text /\ (Z.of_nat (length text) < 2 ^ 32)%Z /\ exists root toks, json_parse alpha alnum cfg text None = Some (root, []) /\
    json_lex alpha alnum (flat_source text) cfg = Some toks /\ tiles tok_span 0 toks (length text).
  Proof.
    intros (L & cs & v & -> & F & J). split; [now exists cs|]. split; [exact L|]. destruct (json_accepts_valid alpha alnum cfg cs v F L J) as (root & toks & A & B & C & _). eauto.
  Qed.
End Inc.

(** ** C211 *)
(** The tree and the diagnostics of a parse with the tree of an earlier text, which was parsed without a diagnostic, are those of a
    parse from scratch, whatever the new text is, as long as the tokens of both texts tile them. *)
Theorem json_incremental_partial : forall alpha alnum cfg text1 es text2 toks1 toks2 root1,
  valid text1 -> valid text2 -> (Z.of_nat (length text1) < 2 ^ 32)%Z -> (Z.of_nat (length text2) < 2 ^ 32)%Z ->
  json_lex alpha alnum (flat_source text1) cfg = Some toks1 -> tiles tok_span 0 toks1 (length text1) ->
  json_lex alpha alnum (flat_source text2) cfg = Some toks2 -> tiles tok_span 0 toks2 (length text2) ->
  starts_plain (jc_comments cfg) text1 -> json_parse alpha alnum cfg text1 None = Some (root1, []) ->
  Forall (edit_ok text1) es -> compatible es -> plain_edits (jc_comments cfg) text1 es -> text2 = simultaneous text1 es ->
  json_parse alpha alnum cfg text2 (Some (root1, es)) = json_parse alpha alnum cfg text2 None.
Proof. intros alpha alnum cfg text1 es text2 toks1 toks2 root1 V1 V2 L1 L2 X1 T1 X2 T2 Sp P1 Ok Cp Pe ->. now apply (json_inc alpha alnum cfg text1 es toks1 toks2). Qed.
Print Assumptions json_incremental_partial.

(** JSON texts edited any number of times: the tree kept is the tree of the last text, and nothing is reported. *)
Theorem json_session_partial : forall alpha alnum cfg history text text' root,
  edited (jc_comments cfg) text history text' -> json_parse alpha alnum cfg text None = Some (root, []) ->
  exists root', keep_tree (json_parse alpha alnum cfg) text root history = Some root' /\ json_parse alpha alnum cfg text' None = Some (root', []).
Proof.
  intros alpha alnum cfg history text text' root E. revert root. induction E as [text J | text es r text' J Sp Ok Cp Pe E IH]; intros root P; [now exists root|].
  assert (J2 : is_json (simultaneous text es)) by (inversion E; assumption). destruct (json_tokens_tile alpha alnum cfg _ J) as (V1 & L1 & root1 & toks1 & A1 & B1 & C1). destruct (json_tokens_tile alpha alnum cfg _ J2) as (V2 & L2 & root2 & toks2 & A2 & B2 & C2).
  cbn [keep_tree]. rewrite (json_inc alpha alnum cfg text es toks1 toks2 root V1 V2 L1 L2 B1 C1 B2 C2 Sp P Ok Cp Pe), A2. now apply IH.
Qed.
Print Assumptions json_session_partial.

(** A blank put behind a number: the parse with the old tree leaves it to the array, the parse from scratch to the number. *)
Theorem json_incremental_refuted : exists text1 e text2 root1 root2 root2', edit_ok text1 e /\ text2 = simultaneous text1 [e] /\ is_json text1 /\ is_json text2 /\ starts_plain false text1 /\ root2 <> root2' /\
  forall alpha alnum, json_parse alpha alnum standard text1 None = Some (root1, []) /\ json_parse alpha alnum standard text2 None = Some (root2, []) /\
    json_parse alpha alnum standard text2 (Some (root1, [e])) = Some (root2', []).
Proof.
  assert (Nu : forall c, (49 <= c <= 57)%Z -> jvalue [c] (JNumber [c])) by (intros c Hc; apply VNumber; apply (JNum [] [c] [] []); [now left | apply JIPos; [exact Hc | constructor] | constructor | constructor]).
  exists (lit "[1,2]"), (Edit 2 2 (lit " ")), (lit "[1 ,2]"), (GNode KRoot 5 [GNode KArray 5 [GLeaf KLBracket 1 None; GNode KNumber 1 [GLeaf KNumberLit 1 None]; GLeaf KComma 1 None; GNode KNumber 1 [GLeaf KNumberLit 1 None]; GLeaf KRBracket 1 None]]).
  eexists _, _. split; [|split; [reflexivity|split; [|split; [|split; [|split; [|intros alpha alnum; split; [vm_compute; reflexivity | split; vm_compute; reflexivity]]]]]]].
  - repeat split; try reflexivity; [apply Nat.leb_le; reflexivity .. |]. exists (lit " "). split; [apply scalars_by; reflexivity | reflexivity].
  - split; [vm_compute; reflexivity|]. exists (lit "[1,2]"), (JArray [JNumber (lit "1"); JNumber (lit "2")]). split; [reflexivity|]. split; [apply scalars_by; reflexivity|]. apply (TText [] (lit "[1,2]") []); [constructor | | constructor]. apply (VArray (lit "1,2")).
    apply (EMore (lit "1") _ (lit "2")); [|apply EOne].
    + apply (TText [] (lit "1") []); [constructor | apply (Nu 49%Z); lia | constructor].
    + apply (TText [] (lit "2") []); [constructor | apply (Nu 50%Z); lia | constructor].
  - split; [vm_compute; reflexivity|]. exists (lit "[1 ,2]"), (JArray [JNumber (lit "1"); JNumber (lit "2")]). split; [reflexivity|]. split; [apply scalars_by; reflexivity|]. apply (TText [] (lit "[1 ,2]") []); [constructor | | constructor]. apply (VArray (lit "1 ,2")).
    apply (EMore (lit "1 ") _ (lit "2")); [|apply EOne].
    + apply (TText [] (lit "1") (lit " ")); [constructor | apply (Nu 49%Z); lia | constructor; [now left | constructor]].
    + apply (TText [] (lit "2") []); [constructor | apply (Nu 50%Z); lia | constructor].
  - cbn. unfold gap, is_ws. lia.
  - intros H. discriminate H.
Qed.
Print Assumptions json_incremental_refuted.

(** ** A case: a number of a nested array is replaced, then an entry inserted. *)
Example ex_json_session : let text := lit "[[1,2],3]" in let es := [Edit 2 3 (lit "45"); Edit 5 5 (lit ",6")] in
  exists root, json_parse no_letters no_letters standard text None = Some (root, []) /\ Forall (edit_ok text) es /\ compatible es /\ plain_edits false text es /\ starts_plain false text /\
    json_parse no_letters no_letters standard (lit "[[45,2,6],3]") (Some (root, es)) = json_parse no_letters no_letters standard (lit "[[45,2,6],3]") None /\ simultaneous text es = lit "[[45,2,6],3]".
Proof.
  cbv zeta. eexists. split; [vm_compute; reflexivity|]. split; [repeat (apply Forall_cons || apply Forall_nil); (repeat split; try reflexivity; [apply Nat.leb_le; reflexivity .. |]); [exists (lit "45") | exists (lit ",6")]; (split; [apply scalars_by; reflexivity | reflexivity])|]. split; [|split; [|split; [|split; [vm_compute; reflexivity | reflexivity]]]].
  - unfold compatible. ord_pairs.
  - intros p c I E. change (In (Z.of_nat p) [2%Z; 6%Z]) in I. destruct I as [I|[I|[]]]; [assert (p = 2) as -> by lia | assert (p = 6) as -> by lia]; vm_compute in E; injection E as <-; unfold gap, is_ws; lia.
  - cbn. unfold gap, is_ws. lia.
Qed.

Lemma pair_json c d : (49 <= c <= 57)%Z -> (49 <= d <= 57)%Z -> is_json [91%Z; c; 44%Z; d; 93%Z].
Proof.
  intros Hc Hd. assert (Nu : forall c, (49 <= c <= 57)%Z -> jvalue [c] (JNumber [c])) by (intros x Hx; apply VNumber; apply (JNum [] [x] [] []); [now left | apply JIPos; [exact Hx | constructor] | constructor | constructor]).
  split; [reflexivity|]. exists [91%Z; c; 44%Z; d; 93%Z], (JArray [JNumber [c]; JNumber [d]]). split; [|split].
  - assert (E : forall x, (49 <= x <= 57)%Z -> encode_char x = [x]) by (intros x Hx; unfold encode_char; destruct (Z.ltb_spec x 128); [reflexivity | lia]). cbn [encode]. rewrite (E c Hc), (E d Hd). reflexivity.
  - repeat constructor; lia.
  - apply (TText [] [91%Z; c; 44%Z; d; 93%Z] []); [constructor | | constructor]. apply (VArray [c; 44%Z; d]). apply (EMore [c] _ [d]); [|apply EOne].
    + apply (TText [] [c] []); [constructor | now apply Nu | constructor].
    + apply (TText [] [d] []); [constructor | now apply Nu | constructor].
Qed.
(** Two edits of [[1,2]], one after the other. *)
Example ex_json_edited : edited false (lit "[1,2]") [[Edit 1 2 (lit "3")]; [Edit 3 4 (lit "4")]] (lit "[3,4]").
Proof.
  assert (Ok : forall s a t, valid t -> is_boundary s a = true -> is_boundary s (S a) = true -> S a <= length s -> edit_ok s (Edit a (S a) t)) by (intros; repeat split; cbn; try assumption; lia).
  assert (V : forall t, forallb is_scalarb t = true -> encode t = t -> valid t) by (intros t A B; exists t; split; [now apply scalars_by | now symmetry]).
  assert (W : ~ gap false 91%Z /\ ~ gap false 51%Z /\ ~ gap false 52%Z) by (unfold gap, is_ws; lia).
  apply EdMore; [apply (pair_json 49 50); lia | apply W | constructor; [|constructor]; apply Ok; [apply V; reflexivity | reflexivity | reflexivity | apply Nat.leb_le; reflexivity] | unfold compatible; ord_pairs | |].
  { intros p c I E. change (In (Z.of_nat p) [1%Z]) in I. destruct I as [I|[]]. assert (p = 1) as -> by lia. vm_compute in E. injection E as <-. apply W. }
  change (simultaneous (lit "[1,2]") [Edit 1 2 (lit "3")]) with (lit "[3,2]").
  apply EdMore; [apply (pair_json 51 50); lia | apply W | constructor; [|constructor]; apply Ok; [apply V; reflexivity | reflexivity | reflexivity | apply Nat.leb_le; reflexivity] | unfold compatible; ord_pairs | |].
  { intros p c I E. change (In (Z.of_nat p) [3%Z]) in I. destruct I as [I|[]]. assert (p = 3) as -> by lia. vm_compute in E. injection E as <-. apply W. }
  change (simultaneous (lit "[3,2]") [Edit 3 4 (lit "4")]) with (lit "[3,4]"). apply EdNone. apply (pair_json 51 52); lia.
Qed.
(** A case with comments and single quotes: a comment is grown behind a string and a number replaced. *)
Example ex_json_comments : let cfg := JsonConfig false false true true false in let text := lit "[1,'b'/*c*/,2]" in let es := [Edit 1 2 (lit "45"); Edit 8 8 (lit "d")] in
  exists toks1 toks2 root, json_lex no_letters no_letters (flat_source text) cfg = Some toks1 /\ tiles tok_span 0 toks1 (length text) /\ json_parse no_letters no_letters cfg text None = Some (root, []) /\
    json_lex no_letters no_letters (flat_source (lit "[45,'b'/*dc*/,2]")) cfg = Some toks2 /\ tiles tok_span 0 toks2 16 /\
    Forall (edit_ok text) es /\ compatible es /\ plain_edits true text es /\ starts_plain true text /\ simultaneous text es = lit "[45,'b'/*dc*/,2]".
Proof.
  cbv zeta. eexists _, _, _. split; [vm_compute; reflexivity|]. split; [cbn; repeat split; repeat constructor|]. split; [vm_compute; reflexivity|]. split; [vm_compute; reflexivity|]. split; [cbn; repeat split; repeat constructor|].
  split; [repeat (apply Forall_cons || apply Forall_nil); (repeat split; try reflexivity; [apply Nat.leb_le; reflexivity .. |]); [exists (lit "45") | exists (lit "d")]; (split; [apply scalars_by; reflexivity | reflexivity])|]. split; [|split; [|split; [|reflexivity]]].
  - unfold compatible. ord_pairs.
  - intros p c I E. change (In (Z.of_nat p) [1%Z; 9%Z]) in I. destruct I as [I|[I|[]]]; [assert (p = 1) as -> by lia | assert (p = 9) as -> by lia]; vm_compute in E; injection E as <-; unfold gap, is_ws; lia.
  - cbn. unfold gap, is_ws. lia.
Qed.
