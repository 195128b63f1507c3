(** The JSON parser follows a grammar of the class of [GramModel] wherever it reports nothing, and a parse with an old
    tree goes step by step with the parse without it. *)
From Verif Require Import Base Utf8 EditModel EditSpec LexModel TreeModel TreeSpec TreeProofs ParserModel ParserSpec ParserProofs GramModel GramSpec GramProofs JsonModel.

Definition att (k : nat) (o : option nat) : bool := match o with Some k' => k' =? k | None => false end.
Lemma att_some k o : att k o = true <-> o = Some k.
Proof. destruct o as [j|]; cbn; [|split; discriminate]. split; [intros H; apply Nat.eqb_eq in H; now subst | intros H; injection H as ->; apply Nat.eqb_refl]. Qed.
Lemma at_hk s k : at_kind s k = att k (hk (rem s)).
Proof. unfold at_kind. now rewrite peek_hk. Qed.

Section Grammar.
  Variable cfg : json_config.

  Definition value_gram : gram :=
    GIf (att KLBrace) (GRule KObject) (GIf (att KLBracket) (GRule KArray) (GIf (att KStringLit) (GRule KString)
      (GIf (att KNumberLit) (GRule KNumber) (GIf (att KBooleanLit) (GRule KBoolean) (GRule KNull))))).
  Definition later_gram (close : nat) (item : gram) : gram :=
    GWhile (att KComma) (GSeq (GTok KComma) (if jc_trailing cfg then GIf (att close) GEmpty item else item)).
  Definition loop_gram (close : nat) (item : gram) (first : bool) : gram :=
    if first then GIf (att close) GEmpty (GSeq item (later_gram close item)) else later_gram close item.
  Definition items_gram (open close : nat) (item : gram) : gram := GSeq (GTok open) (GSeq (loop_gram close item true) (GTok close)).
  Definition key_gram : gram := GIf (att KStringLit) (GTok KStringLit) (GTok (if jc_bare cfg then KBareKey else KStringLit)).
  Definition entry_gram : gram := GSeq key_gram (GSeq (GTok KColon) value_gram).
  Definition json_body (k : nat) : gram :=
    if k =? KObject then items_gram KLBrace KRBrace (GRule KEntry)
    else if k =? KArray then items_gram KLBracket KRBracket value_gram
    else if k =? KEntry then entry_gram
    else if k =? KString then GTok KStringLit else if k =? KNumber then GTok KNumberLit
    else if k =? KBoolean then GTok KBooleanLit else GTok KNullLit.

  Lemma json_contained : self_contained json_body KEof.
  Proof.
    intros k. unfold json_body, items_gram, loop_gram, later_gram, entry_gram, key_gram.
    destruct (jc_trailing cfg), (jc_bare cfg); repeat match goal with |- context [if k =? ?c then _ else _] => destruct (k =? c); [vm_compute; auto|] end; vm_compute; auto.
  Qed.
  Lemma json_avoids k : avoids KRoot (json_body k) = true.
  Proof.
    unfold json_body, items_gram, loop_gram, later_gram, entry_gram, key_gram.
    destruct (jc_trailing cfg), (jc_bare cfg); repeat match goal with |- context [if k =? ?c then _ else _] => destruct (k =? c); [vm_compute; auto|] end; vm_compute; auto.
  Qed.

  Notation yields := (yields ignored json_body).

  Lemma yields_det g ts ch rest : yields g ts ch rest -> forall ch' rest', yields g ts ch' rest' -> ch = ch' /\ rest = rest'.
  Proof.
    induction 1 as [| k n tr rest Hk Ht Hr | a b ts ca mid cb rest Ha IHa Hb IHb | test a b ts ch rest H IH | test a ts St | test a ts ca mid cb rest Ht Ha IHa Hb IHb | a ts ch rest H IH | k ts ch g rest H IH N]; intros ch' rest' Y.
    - inversion Y; subst. now split.
    - inversion Y as [| k1 n1 tr1 r1 A1 A2 A3 | | | | | |]; subst. match goal with Q : _ ++ _ = _ ++ _ |- _ => destruct (trivia_split ignored _ _ _ _ A2 Ht A3 Hr Q) as [-> ->] end. now split.
    - inversion Y as [| | ? ? ? ca1 mid1 cb1 ? A1 A2 | | | | |]; subst. destruct (IHa _ _ A1) as [-> ->]. destruct (IHb _ _ A2) as [-> ->]. now split.
    - inversion Y; subst. now apply IH.
    - inversion Y; subst; [now split | congruence].
    - inversion Y as [| | | | | ? ? ? ca1 mid1 cb1 ? A0 A1 A2 | |]; subst; [congruence|]. destruct (IHa _ _ A1) as [-> ->]. destruct (IHb _ _ A2) as [-> ->]. now split.
    - inversion Y; subst. now apply IH.
    - inversion Y as [| | | | | | | ? ? ch1 g1 ? A1 A2]; subst. destruct (IH _ _ A1) as [<- <-]. rewrite N in A2. injection A2 as ->. now split.
  Qed.
  Lemma yields_tok k ts ch rest : yields (GTok k) ts ch rest -> hk ts = Some k.
  Proof. intros H. inversion H; subst. reflexivity. Qed.

  Lemma value_cases ts ch rest : yields value_gram ts ch rest <-> exists k v, hk ts = Some k /\ value_kind k = Some v /\ yields (GRule v) ts ch rest.
  Proof.
    split.
    - intros H.
      Ltac step H := inversion H; clear H; subst; match goal with Y : yields (if ?b then _ else _) _ _ _ |- _ => destruct b eqn:?B; rename Y into H end.
      assert (E : forall k v, att k (hk ts) = true -> value_kind k = Some v -> yields (GRule v) ts ch rest -> exists k v, hk ts = Some k /\ value_kind k = Some v /\ yields (GRule v) ts ch rest) by (intros k v A; apply att_some in A; eauto).
      step H; [eapply E; [exact B | reflexivity | exact H]|]. step H; [eapply E; [exact B0 | reflexivity | exact H]|]. step H; [eapply E; [exact B1 | reflexivity | exact H]|]. step H; [eapply E; [exact B2 | reflexivity | exact H]|]. step H; [eapply E; [exact B3 | reflexivity | exact H]|].
      exists KNullLit, KNull. split; [|now split]. inversion H as [| | | | | | | ? ? ch1 g1 ? A1 A2]; subst. exact (yields_tok _ _ _ _ A1).
    - intros (k & v & Hk & Hv & Y). unfold value_gram. unfold value_kind in Hv.
      constructor. rewrite Hk. cbn [att]. destruct (k =? KLBrace); [injection Hv as <-; exact Y|].
      constructor. rewrite Hk. cbn [att]. destruct (k =? KLBracket); [injection Hv as <-; exact Y|].
      constructor. rewrite Hk. cbn [att]. destruct (k =? KStringLit); [injection Hv as <-; exact Y|].
      constructor. rewrite Hk. cbn [att]. destruct (k =? KNumberLit); [injection Hv as <-; exact Y|].
      constructor. rewrite Hk. cbn [att]. destruct (k =? KBooleanLit); [injection Hv as <-; exact Y|].
      destruct (k =? KNullLit); [injection Hv as <-; exact Y | discriminate].
  Qed.
  Lemma value_starts ts ch rest : yields value_gram ts ch rest -> exists k v, hk ts = Some k /\ value_kind k = Some v.
  Proof. intros H. apply value_cases in H as (k & v & A & B & _). now exists k, v. Qed.

  (** ** Runs without an old tree *)
  Definition full (s : pstate) : Prop := lengths_fit (ps_toks s) /\ ps_inc s = None /\ ready ignored s.
  Definition runs (s s' : pstate) (new : list item) (e : list (nat * nat)) : Prop := goes_on ignored s s' /\ ps_sink s' = ps_sink s ++ new /\ ps_errs s' = ps_errs s ++ e.

  Lemma runs_full s s' new e : full s -> runs s s' new e -> full s'.
  Proof. intros (F & N & R) ((T & L & I & R') & _). split; [now rewrite T|]. split; [congruence | exact R']. Qed.
  Lemma runs_refl s : full s -> runs s s [] [].
  Proof. intros F. split; [apply goes_refl; apply F|]. now rewrite !app_nil_r. Qed.
  Lemma runs_trans a b c n1 n2 e1 e2 : runs a b n1 e1 -> runs b c n2 e2 -> runs a c (n1 ++ n2) (e1 ++ e2).
  Proof. intros (G1 & S1 & E1) (G2 & S2 & E2). split; [eapply goes_trans; eassumption|]. split; [now rewrite S2, S1, app_assoc | now rewrite E2, E1, app_assoc]. Qed.
  Lemma runs_error s t o : full s -> runs s (push_error s t o) [] [(t, o)].
  Proof. intros (F & N & R). split; [split; [reflexivity|]; split; [reflexivity|]; split; [reflexivity | exact R]|]. split; [now rewrite app_nil_r | reflexivity]. Qed.

  Lemma ready_skip s : ready ignored s -> json_skip s = s.
  Proof.
    intros [R _]. unfold json_skip. destruct (length (ps_toks s) - ps_index s); [reflexivity|]. cbn [skip_loop]. destruct (ps_current s) as [t|] eqn:E; [|reflexivity].
    unfold rem in R. rewrite (to_come_cons _ _ E) in R. cbn in R. now rewrite R.
  Qed.
  Lemma ready_end s : ready ignored s -> ps_not_at_end s = false -> rem s = [].
  Proof. intros _ H. unfold ps_not_at_end in H. apply Nat.ltb_ge in H. unfold rem, to_come. now rewrite skipn_all2. Qed.

  Lemma take_tok s k : full s -> at_kind s k = true -> exists new, runs s (bump ignored s) new [] /\ yields (GTok k) (rem s) (map snd new) (rem (bump ignored s)).
  Proof.
    intros (F & N & R) A. assert (A' := A). unfold at_kind, peek_kind in A. destruct (ps_current s) as [t|] eqn:E; [|discriminate]. cbn [option_map] in A. apply Nat.eqb_eq in A. subst k.
    destruct (bump_run ignored json_body s t F E) as (seg & B & C & D & R'). destruct (bump_push ignored s) as [l (_ & B1 & B2 & B3 & B4 & _)].
    exists (map as_item (t :: seg)). split; [split; [repeat split; try assumption; apply R'|]; split; [exact D | now rewrite app_nil_r]|].
    rewrite items_trees. unfold rem at 1. rewrite B. cbn [map]. rewrite map_app. change (tok_yield t) with (tk_kind t, tk_end t - tk_start t). constructor.
    - destruct R as [R _]. unfold rem in R. rewrite B in R. exact R.
    - now apply trivia_yield.
    - apply R'.
  Qed.

  (** A parser does what a grammar says, when the next token is as [pre] says. *)
  Definition models (pre : option nat -> Prop) (P : parsing) (g : gram) : Prop := forall s ok s', full s -> pre (hk (rem s)) -> P s = Some (ok, s') ->
    exists new e, runs s s' new e /\ (e = [] -> ok = true /\ yields g (rem s) (map snd new) (rem s')) /\ ((exists ch rest, yields g (rem s) ch rest) -> e = []).
  Definition any (o : option nat) : Prop := True.

  Lemma node_models pre k P : models pre P (json_body k) -> models pre (node k P) (GRule k).
  Proof.
    intros H s ok s' Fs Hp E. assert (N : ps_inc s = None) by apply Fs. unfold node, try_reuse in E. rewrite N in E. destruct (P s) as [[o1 s1]|] eqn:Ep; [|discriminate].
    destruct (H s o1 s1 Fs Hp Ep) as (new & e & (G & S1 & E1) & Y & X). unfold finish_at, checkpoint in E. cbn [snd] in E.
    destruct (Nat.ltb_spec (length (ps_sink s1)) (length (ps_sink s))); [discriminate|]. rewrite S1, skipn_app, skipn_all, Nat.sub_diag in E. cbn [app skipn] in E.
    destruct (new_node k (map snd new)) as [g|] eqn:Ng; [|discriminate]. rewrite firstn_app, firstn_all, Nat.sub_diag in E. cbn [firstn] in E. rewrite app_nil_r in E. injection E as <- <-.
    exists [(Some (ps_next s1), g)], e. split; [|split].
    - split; [|split; [reflexivity | exact E1]]. destruct G as (A & B & C & D). repeat split; try assumption; apply D.
    - intros Z. destruct (Y Z) as [-> Y1]. split; [reflexivity|]. cbn [map snd]. now apply YRule with (map snd new).
    - intros (ch & rest & Yr). apply X. inversion Yr; subst. eauto.
  Qed.

  Section Items.
    Variables (close : nat) (item : parsing) (ig : gram).
    Hypothesis Hitem : models any item ig.
    Hypothesis Hstart : forall ts ch rest, yields ig ts ch rest -> exists k, hk ts = Some k /\ k <> close /\ k <> KEof.
    Hypothesis Hcomma : close <> KComma.
    Hypothesis Heof : close <> KEof.

    Definition ends (s : pstate) (ok : bool) (s' : pstate) (g : gram) : Prop := exists new e, runs s s' new e /\
      (e = [] -> ok = true /\ (hk (rem s') = Some close -> yields g (rem s) (map snd new) (rem s'))) /\
      ((exists ch rest, yields g (rem s) ch rest /\ hk rest = Some close) -> e = [] /\ hk (rem s') = Some close).

    Lemma att_not k ts : att k (hk ts) = false -> hk ts <> Some k.
    Proof. intros H E. apply att_some in E. congruence. Qed.

    Lemma later_stop ts ch rest : yields (later_gram close ig) ts ch rest -> att KComma (hk ts) = false -> ch = [] /\ rest = ts.
    Proof. intros H E. unfold later_gram in H. inversion H; subst; [now split | congruence]. Qed.

    Lemma loop_models : forall fuel first s ok s', full s -> items_loop cfg close item fuel first s = Some (ok, s') -> ends s ok s' (loop_gram close ig first).
    Proof.
      induction fuel as [|fu IH]; intros first s ok s' Fs E; [discriminate|]. cbn [items_loop] in E.
      assert (Next : forall s2 ok s', full s2 -> (match item s2 with None => None | Some (false, s3) => Some (false, s3) | Some (true, s3) => items_loop cfg close item fu false (json_skip s3) end) = Some (ok, s') -> ends s2 ok s' (GSeq ig (later_gram close ig))).
      { clear E Fs s ok s' first. intros s2 ok s' F2 E. destruct (item s2) as [[b s3]|] eqn:Ei; [|discriminate]. destruct (Hitem s2 b s3 F2 Logic.I Ei) as (n1 & e1 & R1 & Y1 & X1). pose proof (runs_full _ _ _ _ F2 R1) as F3. destruct b.
        - rewrite (ready_skip s3) in E by apply F3. destruct (IH false s3 ok s' F3 E) as (n2 & e2 & R2 & Y2 & X2). exists (n1 ++ n2), (e1 ++ e2). split; [eapply runs_trans; eassumption|]. split.
          + intros Z. apply app_eq_nil in Z as [Z1 Z2]. destruct (Y1 Z1) as [_ Y]. destruct (Y2 Z2) as [-> Y']. split; [reflexivity|]. intros Hc. rewrite map_app. econstructor; [exact Y | now apply Y'].
          + intros (ch & rest & Y & Hc). inversion Y as [| | ? ? ? ca mid cb ? A1 A2 | | | | |]; subst. assert (Z1 : e1 = []) by (apply X1; eauto). destruct (Y1 Z1) as [_ Y']. destruct (yields_det _ _ _ _ A1 _ _ Y') as [_ ->].
            destruct X2 as [Z2 Hc']; [eauto|]. rewrite Z1, Z2. now split.
        - injection E as <- <-. exists n1, e1. split; [exact R1|]. split; [intros Z; destruct (Y1 Z); discriminate|]. intros (ch & rest & Y & Hc). inversion Y; subst. assert (Z1 : e1 = []) by (apply X1; eauto). destruct (Y1 Z1). discriminate. }
      assert (Rs : ready ignored s) by apply Fs. destruct (ps_not_at_end s) eqn:Ne.
      2:{ injection E as <- <-. pose proof (ready_end s Rs Ne) as Er. exists [], []. split; [now apply runs_refl|]. split; [intros _; split; [reflexivity|]; rewrite Er; discriminate|].
          intros (ch & rest & Y & Hc). exfalso. rewrite Er in Y. destruct first; cbn [loop_gram] in Y.
          - inversion Y as [| | | ? ? ? ? ? ? A1 | | | |]; subst. cbn in A1. inversion A1 as [| | ? ? ? ca mid cb ? A2 A3 | | | | |]; subst. destruct (Hstart _ _ _ A2) as (k & Q & _). discriminate.
          - apply later_stop in Y as [_ ->]; [discriminate | reflexivity]. }
      rewrite (ready_skip s Rs) in E. rewrite !at_hk in E. destruct (att close (hk (rem s))) eqn:Ac.
      { injection E as <- <-. exists [], []. split; [now apply runs_refl|]. assert (Hc := proj1 (att_some _ _) Ac). split; [|intros _; now split]. intros _. split; [reflexivity|]. intros _. destruct first; cbn [loop_gram].
        - constructor. rewrite Ac. constructor.
        - apply YStop. rewrite Hc. cbn. apply Nat.eqb_neq. exact Hcomma. }
      destruct (att KEof (hk (rem s))) eqn:Ae.
      { injection E as <- <-. eexists _, _. split; [apply runs_error; exact Fs|]. split; [discriminate|]. apply att_some in Ae. intros (ch & rest & Y & Hc). exfalso. destruct first; cbn [loop_gram] in Y.
        - inversion Y as [| | | ? ? ? ? ? ? A1 | | | |]; subst. rewrite Ac in A1. inversion A1 as [| | ? ? ? ca mid cb ? A2 A3 | | | | |]; subst. destruct (Hstart _ _ _ A2) as (k & Q & _ & Q2). congruence.
        - apply later_stop in Y as [_ ->]; [congruence | now rewrite Ae]. }
      destruct first; cbn [loop_gram].
      { destruct (Next s ok s' Fs E) as (new & e & R & Y & X). exists new, e. split; [exact R|]. split.
        - intros Z. destruct (Y Z) as [-> Y']. split; [reflexivity|]. intros Hc. constructor. rewrite Ac. now apply Y'.
        - intros (ch & rest & Yr & Hc). apply X. inversion Yr as [| | | ? ? ? ? ? ? A1 | | | |]; subst. rewrite Ac in A1. eauto. }
      unfold eat in E. rewrite at_hk in E. destruct (att KComma (hk (rem s))) eqn:Am.
      2:{ injection E as <- <-. eexists _, _. split; [apply runs_error; exact Fs|]. split; [discriminate|]. intros (ch & rest & Y & Hc). exfalso. apply later_stop in Y as [_ ->]; [|exact Am]. apply att_some in Hc. congruence. }
      destruct (take_tok s KComma Fs) as (n1 & R1 & Y1); [now rewrite at_hk|]. pose proof (runs_full _ _ _ _ Fs R1) as F2. set (s2 := bump ignored s) in *. rewrite (ready_skip s2) in E by apply F2. rewrite at_hk in E.
      assert (Inv : forall ch rest, yields (later_gram close ig) (rem s) ch rest -> exists cx mid cb, yields (if jc_trailing cfg then GIf (att close) GEmpty ig else ig) (rem s2) cx mid /\ yields (later_gram close ig) mid cb rest).
      { intros ch rest Y. unfold later_gram in Y. inversion Y as [| | | | | ? ? ? ca mid cb ? A0 A1 A2 | |]; subst; [congruence|]. inversion A1 as [| | ? ? ? cc mid1 cx ? A3 A4 | | | | |]; subst. destruct (yields_det _ _ _ _ A3 _ _ Y1) as [_ ->]. exists cx, mid, cb. now split. }
      destruct (att close (hk (rem s2))) eqn:Ac2.
      { assert (Hc2 := proj1 (att_some _ _) Ac2). destruct (jc_trailing cfg) eqn:Tr.
        - injection E as <- <-. exists n1, []. split; [exact R1|]. split; [|intros _; now split]. intros _. split; [reflexivity|]. intros _. rewrite <- (app_nil_r (map snd n1)). unfold later_gram. apply YMore with (rem s2); [exact Am | |].
          + rewrite <- (app_nil_r (map snd n1)). econstructor; [exact Y1|]. rewrite Tr. constructor. rewrite Ac2. constructor.
          + apply YStop. rewrite Hc2. cbn. apply Nat.eqb_neq. exact Hcomma.
        - injection E as <- <-. eexists _, _. split; [eapply runs_trans; [exact R1 | apply runs_error; exact F2]|]. split; [discriminate|]. intros (ch & rest & Y & Hc). exfalso. destruct (Inv _ _ Y) as (cx & mid & cb & A1 & _). destruct (Hstart _ _ _ A1) as (k & Q1 & Q2 & _). congruence. }
      destruct (Next s2 ok s' F2 E) as (n2 & e2 & R2 & Y2 & X2). exists (n1 ++ n2), e2. split; [exact (runs_trans _ _ _ _ _ _ _ R1 R2)|]. split.
      - intros Z. destruct (Y2 Z) as [-> Y]. split; [reflexivity|]. intros Hc. specialize (Y Hc). inversion Y as [| | ? ? ? ca mid cb ? A1 A2 | | | | |]; subst. rewrite map_app.
        replace (map snd n2) with (ca ++ cb) by assumption. rewrite app_assoc. unfold later_gram. apply YMore with mid; [exact Am | | exact A2]. econstructor; [exact Y1|]. destruct (jc_trailing cfg); [|exact A1]. constructor. now rewrite Ac2.
      - intros (ch & rest & Y & Hc). destruct (Inv _ _ Y) as (cx & mid & cb & A1 & A2). apply X2. exists (cx ++ cb), rest. split; [|exact Hc]. econstructor; [|exact A2]. destruct (jc_trailing cfg); [|exact A1]. inversion A1; subst. now rewrite Ac2 in *.
    Qed.

    Lemma items_models open : models any (items cfg open close item) (items_gram open close ig).
    Proof.
      intros s ok s' Fs _ E. unfold items, eat in E. rewrite at_hk in E. destruct (att open (hk (rem s))) eqn:Ao.
      2:{ injection E as <- <-. eexists _, _. split; [apply runs_error; exact Fs|]. split; [discriminate|]. intros (ch & rest & Y). exfalso. unfold items_gram in Y. inversion Y as [| | ? ? ? ca mid cb ? A1 A2 | | | | |]; subst. apply yields_tok in A1. apply att_some in A1. congruence. }
      destruct (take_tok s open Fs) as (n1 & R1 & Y1); [now rewrite at_hk|]. pose proof (runs_full _ _ _ _ Fs R1) as F1. set (s1 := bump ignored s) in *.
      destruct (items_loop cfg close item (S (length (ps_toks s1))) true s1) as [[b s2]|] eqn:El; [|discriminate]. destruct (loop_models _ _ _ _ _ F1 El) as (n2 & e2 & R2 & Y2 & X2). pose proof (runs_full _ _ _ _ F1 R2) as F2.
      assert (Inv : forall ch rest, yields (items_gram open close ig) (rem s) ch rest -> exists c2 mid c3, yields (loop_gram close ig true) (rem s1) c2 mid /\ yields (GTok close) mid c3 rest).
      { intros ch rest Y. unfold items_gram in Y. inversion Y as [| | ? ? ? ca mid cb ? A1 A2 | | | | |]; subst. destruct (yields_det _ _ _ _ A1 _ _ Y1) as [_ ->]. inversion A2 as [| | ? ? ? c2 mid1 c3 ? A3 A4 | | | | |]; subst. eauto. }
      destruct b.
      2:{ injection E as <- <-. exists (n1 ++ n2), e2. split; [exact (runs_trans _ _ _ _ _ _ _ R1 R2)|]. split; [intros Z; destruct (Y2 Z); discriminate|]. intros (ch & rest & Y). destruct (Inv _ _ Y) as (c2 & mid & c3 & A1 & A2). apply X2. exists c2, mid. split; [exact A1 | exact (yields_tok _ _ _ _ A2)]. }
      rewrite at_hk in E. destruct (att close (hk (rem s2))) eqn:Ac.
      - injection E as <- <-. destruct (take_tok s2 close F2) as (n3 & R3 & Y3); [now rewrite at_hk|]. exists (n1 ++ n2 ++ n3), (e2 ++ []). split; [exact (runs_trans _ _ _ _ _ _ _ R1 (runs_trans _ _ _ _ _ _ _ R2 R3))|]. rewrite app_nil_r. split.
        + intros Z. split; [reflexivity|]. rewrite !map_app. econstructor; [exact Y1|]. econstructor; [|exact Y3]. apply (Y2 Z). now apply att_some.
        + intros (ch & rest & Y). destruct (Inv _ _ Y) as (c2 & mid & c3 & A1 & A2). apply X2. exists c2, mid. split; [exact A1 | exact (yields_tok _ _ _ _ A2)].
      - assert (Bad : forall t o, exists new e, runs s (push_error s2 t o) new e /\ (e = [] -> ok = true /\ yields (items_gram open close ig) (rem s) (map snd new) (rem (push_error s2 t o))) /\ ((exists ch rest, yields (items_gram open close ig) (rem s) ch rest) -> e = [])).
        { intros t o. exists (n1 ++ n2 ++ []), (e2 ++ [(t, o)]). split; [exact (runs_trans _ _ _ _ _ _ _ R1 (runs_trans _ _ _ _ _ _ _ R2 (runs_error s2 t o F2)))|]. split; [intros Z; apply app_eq_nil in Z as [_ Z]; discriminate|].
          intros (ch & rest & Y). exfalso. destruct (Inv _ _ Y) as (c2 & mid & c3 & A1 & A2). destruct X2 as [_ Q]; [exists c2, mid; split; [exact A1 | exact (yields_tok _ _ _ _ A2)]|]. apply att_some in Q. congruence. }
        destruct (at_kind s2 KEof || negb (ps_not_at_end s2)); injection E as <- <-; apply Bad.
    Qed.
  End Items.

  Lemma entry_body_models value : models any value value_gram -> models any (fun s =>
    if at_kind s KStringLit || (jc_bare cfg && at_kind s KBareKey) then
      let s1 := json_skip (bump ignored s) in let '(colon, s2) := eat ignored KColon s1 in value (json_skip (if colon then s2 else expected_error s2))
    else Some (false, expected_error s)) (json_body KEntry).
  Proof.
    intros Hv. change (json_body KEntry) with entry_gram. intros s ok s' Fs _ E. cbv beta in E.
    assert (Key : forall k, hk (rem s) = Some k -> (at_kind s KStringLit || jc_bare cfg && at_kind s KBareKey) = true -> forall ch rest, yields (GTok k) (rem s) ch rest -> yields key_gram (rem s) ch rest).
    { intros k Hk A ch rest Y. unfold key_gram. constructor. rewrite Hk. cbn [att]. rewrite !at_hk, Hk in A. cbn [att] in A. destruct (Nat.eqb_spec k KStringLit) as [->|N]; [exact Y|]. cbn [orb] in A. apply andb_true_iff in A as [-> A]. apply Nat.eqb_eq in A. now subst k. }
    destruct (at_kind s KStringLit || jc_bare cfg && at_kind s KBareKey) eqn:A.
    - assert (Hk : exists k, hk (rem s) = Some k) by (rewrite !at_hk in A; destruct (hk (rem s)) as [k|]; [now exists k | cbn in A; rewrite andb_false_r in A; discriminate]). destruct Hk as [k Hk].
      destruct (take_tok s k Fs) as (n1 & R1 & Y1); [rewrite at_hk; now apply att_some|]. specialize (Key k Hk eq_refl _ _ Y1). pose proof (runs_full _ _ _ _ Fs R1) as F1. set (s1 := bump ignored s) in *. rewrite (ready_skip s1) in E by apply F1. unfold eat in E. rewrite at_hk in E.
      assert (Inv : forall ch rest, yields entry_gram (rem s) ch rest -> exists c2 mid c3, yields (GTok KColon) (rem s1) c2 mid /\ yields value_gram mid c3 rest).
      { intros ch rest Y. unfold entry_gram in Y. inversion Y as [| | ? ? ? ca mid cb ? A1 A2 | | | | |]; subst. destruct (yields_det _ _ _ _ A1 _ _ Key) as [_ ->]. inversion A2 as [| | ? ? ? c2 mid1 c3 ? A3 A4 | | | | |]; subst. eauto. }
      destruct (att KColon (hk (rem s1))) eqn:Ac.
      + destruct (take_tok s1 KColon F1) as (n2 & R2 & Y2); [now rewrite at_hk|]. pose proof (runs_full _ _ _ _ F1 R2) as F2. rewrite ready_skip in E by apply F2. destruct (Hv _ _ _ F2 Logic.I E) as (n3 & e3 & R3 & Y3 & X3).
        exists (n1 ++ n2 ++ n3), e3. split; [exact (runs_trans _ _ _ _ _ _ _ R1 (runs_trans _ _ _ _ _ _ _ R2 R3))|]. split.
        * intros Z. destruct (Y3 Z) as [-> Y]. split; [reflexivity|]. rewrite !map_app. econstructor; [exact Key|]. econstructor; [exact Y2 | exact Y].
        * intros (ch & rest & Y). destruct (Inv _ _ Y) as (c2 & mid & c3 & A1 & A2). destruct (yields_det _ _ _ _ A1 _ _ Y2) as [_ ->]. apply X3. eauto.
      + assert (R2 := runs_error s1 0 (current_offset s1) F1). pose proof (runs_full _ _ _ _ F1 R2) as F2. change (push_error s1 0 (current_offset s1)) with (expected_error s1) in *. rewrite ready_skip in E by apply F2.
        destruct (Hv _ _ _ F2 Logic.I E) as (n3 & e3 & R3 & Y3 & X3). eexists _, _. split; [exact (runs_trans _ _ _ _ _ _ _ R1 (runs_trans _ _ _ _ _ _ _ R2 R3))|]. split; [discriminate|].
        intros (ch & rest & Y). exfalso. destruct (Inv _ _ Y) as (c2 & mid & c3 & A1 & A2). apply yields_tok in A1. apply att_some in A1. congruence.
    - injection E as <- <-. eexists _, _. split; [apply runs_error; exact Fs|]. split; [discriminate|]. intros (ch & rest & Y). exfalso. unfold entry_gram in Y. inversion Y as [| | ? ? ? ca mid cb ? A1 A2 | | | | |]; subst. unfold key_gram in A1. inversion A1 as [| | | ? ? ? ? ? ? A3 | | | |]; subst.
      rewrite !at_hk in A. apply orb_false_iff in A as [B1 B2]. rewrite B1 in A3. apply yields_tok in A3. apply att_some in A3. destruct (jc_bare cfg); [cbn in B2; congruence | congruence].
  Qed.
  Lemma entry_models value : models any value value_gram -> models any (entry cfg value) (GRule KEntry).
  Proof. intros Hv. unfold entry. apply node_models. now apply entry_body_models. Qed.
  Lemma entry_starts ts ch rest : yields (GRule KEntry) ts ch rest -> exists k, hk ts = Some k /\ (k = KStringLit \/ k = KBareKey).
  Proof.
    intros H. inversion H as [| | | | | | | ? ? ch1 g1 ? A1 A2]; subst. change (json_body KEntry) with entry_gram in A1. unfold entry_gram in A1. inversion A1 as [| | ? ? ? ca mid cb ? A3 A4 | | | | |]; subst. unfold key_gram in A3. inversion A3 as [| | | ? ? ? ? ? ? A5 | | | |]; subst.
    destruct (att KStringLit (hk ts)); apply yields_tok in A5; [exists KStringLit; auto|]. destruct (jc_bare cfg); [exists KBareKey | exists KStringLit]; auto.
  Qed.

  Lemma value_body_models fu t v : models any (parse_value cfg fu) value_gram -> value_kind t = Some v -> models (fun o => o = Some t) (fun s2 : pstate =>
    if v =? KObject then items cfg KLBrace KRBrace (entry cfg (parse_value cfg fu)) s2 else if v =? KArray then items cfg KLBracket KRBracket (parse_value cfg fu) s2 else Some (true, bump ignored s2)) (json_body v).
  Proof.
    intros IH Vk. intros s1 o1 s1' F1 H1 E1. cbv beta in E1. destruct (Nat.eqb_spec v KObject) as [->|N1].
      - eapply (items_models KRBrace _ (GRule KEntry)); [apply entry_models; exact IH | | discriminate | discriminate | exact F1 | exact Logic.I | exact E1].
        intros ts ch rest Y. destruct (entry_starts _ _ _ Y) as (k & Q & [-> | ->]); (eexists; split; [exact Q | split; discriminate]).
      - destruct (Nat.eqb_spec v KArray) as [->|N2].
        + eapply (items_models KRBracket _ value_gram); [exact IH | | discriminate | discriminate | exact F1 | exact Logic.I | exact E1].
          intros ts ch rest Y. destruct (value_starts _ _ _ Y) as (k & w & Q & Q2). exists k. split; [exact Q|]. split; intros ->; discriminate.
        + injection E1 as <- <-. assert (B : json_body v = GTok (t)).
          { unfold value_kind in Vk. destruct (Nat.eqb_spec (t) KLBrace); [injection Vk as <-; contradiction|]. destruct (Nat.eqb_spec (t) KLBracket); [injection Vk as <-; contradiction|].
            destruct (Nat.eqb_spec (t) KStringLit) as [->|]; [injection Vk as <-; reflexivity|]. destruct (Nat.eqb_spec (t) KNumberLit) as [->|]; [injection Vk as <-; reflexivity|].
            destruct (Nat.eqb_spec (t) KBooleanLit) as [->|]; [injection Vk as <-; reflexivity|]. destruct (Nat.eqb_spec (t) KNullLit) as [->|]; [injection Vk as <-; reflexivity | discriminate]. }
          rewrite B. destruct (take_tok s1 (t) F1) as (n1 & R1 & Y1); [rewrite at_hk; now apply att_some|]. exists n1, []. split; [exact R1|]. split; [intros _; now split | reflexivity]. 
  Qed.
  Lemma value_models : forall fuel, models any (parse_value cfg fuel) value_gram.
  Proof.
    induction fuel as [|fu IH]; intros s ok s' Fs _ E; [discriminate|]. cbn [parse_value] in E. rewrite (ready_skip s) in E by apply Fs.
    pose proof (peek_hk s) as Pk. unfold peek_kind in Pk. destruct (ps_current s) as [t|]; cbn [option_map] in Pk.
    2:{ injection E as <- <-. eexists _, _. split; [apply runs_error; exact Fs|]. split; [discriminate|]. intros (ch & rest & Y). exfalso. destruct (value_starts _ _ _ Y) as (k & v & Q & _). congruence. }
    destruct (tk_kind t =? KEof) eqn:Ke.
    { injection E as <- <-. eexists _, _. split; [apply runs_error; exact Fs|]. split; [discriminate|]. intros (ch & rest & Y). exfalso. destruct (value_starts _ _ _ Y) as (k & v & Q & Q2). apply Nat.eqb_eq in Ke. rewrite <- Pk, Ke in Q. injection Q as <-. discriminate. }
    destruct (value_kind (tk_kind t)) as [v|] eqn:Vk.
    2:{ injection E as <- <-. eexists _, _. split; [apply runs_error; exact Fs|]. split; [discriminate|]. intros (ch & rest & Y). exfalso. destruct (value_starts _ _ _ Y) as (k & v & Q & Q2). congruence. }
    set (P := fun s2 : pstate => if v =? KObject then items cfg KLBrace KRBrace (entry cfg (parse_value cfg fu)) s2 else if v =? KArray then items cfg KLBracket KRBracket (parse_value cfg fu) s2 else Some (true, bump ignored s2)) in *.
    pose proof (value_body_models fu (tk_kind t) v IH Vk) as M. fold P in M.
    destruct (node_models _ v P M s ok s' Fs (eq_sym Pk) E) as (new & e & R & Y & X). exists new, e. split; [exact R|]. split.
    - intros Z. destruct (Y Z) as [-> Y']. split; [reflexivity|]. apply value_cases. exists (tk_kind t), v. split; [now symmetry | now split].
    - intros (ch & rest & Yr). apply X. apply value_cases in Yr as (k & w & Q1 & Q2 & Yr). assert (k = tk_kind t) by congruence. subst k. assert (w = v) by congruence. subst w. eauto.
  Qed.
End Grammar.

(** ** A parse with an old tree beside a parse without *)
Section Beside.
  Variables (cfg : json_config) (lex : str -> list token) (good : str -> Prop).
  Variables (text1 text2 : str) (es : list edit) (old : green) (ch1 : list green) (rest1 : list (nat * nat)).
  Hypothesis Hlex : local_on good ignored KEof lex.
  Hypothesis Hg1 : good text1.
  Hypothesis Hg2 : good text2.
  Hypothesis Hok : Forall (edit_ok text1) es.
  Hypothesis Hc : compatible es.
  Hypothesis Ht2 : text2 = simultaneous text1 es.
  Hypothesis Hcalm : calm ignored (lex text2) es.
  Hypothesis Hold : new_node KRoot ch1 = Some old.
  Hypothesis Hy : yields ignored (json_body cfg) value_gram (map tok_yield (lex text1)) ch1 rest1.
  Hypothesis Hr1 : still ignored rest1.

  Notation sim := (sim lex text2 es old).
  Notation hit := (hit ignored KEof lex (json_body cfg) KRoot text1 text2 es old ch1 value_gram rest1 good Hlex Hg1 Hg2 (json_contained cfg) (json_avoids cfg) Hok Hc Ht2 Hcalm Hold Hy Hr1).
  Notation miss := (miss ignored lex (json_body cfg) KRoot text1 text2 es old ch1 value_gram rest1 Hold Hy).
  Notation reuse_total := (reuse_total ignored lex (json_body cfg) KRoot text1 text2 es old ch1 value_gram rest1 Hold Hy).

  Definition beside (pre : option nat -> Prop) (P : parsing) : Prop := forall f i ok f', sim f i -> ready ignored f -> pre (hk (rem f)) -> P f = Some (ok, f') -> exists i', P i = Some (ok, i') /\ sim f' i'.

  Lemma sim_full f i : sim f i -> ready ignored f -> full f.
  Proof. intros S R. split; [exact (sim_fit ignored KEof lex text2 es old good Hlex Hg2 _ _ S)|]. split; [apply S | exact R]. Qed.
  Lemma models_ready pre P g f i ok f' : models cfg pre P g -> sim f i -> ready ignored f -> pre (hk (rem f)) -> P f = Some (ok, f') -> ready ignored f'.
  Proof. intros M S R Hp E. destruct (M f ok f' (sim_full _ _ S R) Hp E) as (new & e & Ru & _). apply (runs_full _ _ _ _ (sim_full _ _ S R) Ru). Qed.

  Lemma error_sim f i t o : sim f i -> sim (push_error f t o) (push_error i t o).
  Proof. intros (T & L & Ti & Ii & Si & Ei & Li & Ni & c & Ic & Pc). repeat split; try assumption; [|now exists c]. cbn. now rewrite Ei. Qed.
  Lemma offset_sim f i : sim f i -> current_offset i = current_offset f.
  Proof. intros (T & L & Ti & Ii & Si & Ei & Li & _). unfold current_offset, ps_current. now rewrite Ti, Ii, Li. Qed.
  Lemma srclen_sim f i : sim f i -> ps_srclen i = ps_srclen f.
  Proof. intros (T & L & Ti & Ii & Si & Ei & Li & _). exact Li. Qed.
  Lemma toks_sim f i : sim f i -> ps_toks i = ps_toks f /\ ps_index i = ps_index f.
  Proof. intros (T & L & Ti & Ii & _). now split. Qed.
  Lemma current_sim f i : sim f i -> ps_current i = ps_current f.
  Proof. intros S. destruct (toks_sim _ _ S) as [A B]. unfold ps_current. now rewrite A, B. Qed.
  Lemma end_sim f i : sim f i -> ps_not_at_end i = ps_not_at_end f.
  Proof. intros S. destruct (toks_sim _ _ S) as [A B]. unfold ps_not_at_end. now rewrite A, B. Qed.
  Lemma kind_sim f i k : sim f i -> at_kind i k = at_kind f k.
  Proof. intros S. unfold at_kind. now rewrite (peek_sim lex text2 es old f i S). Qed.
  Lemma skip_sim f i : sim f i -> ready ignored f -> json_skip i = i.
  Proof. intros S R. apply ready_skip. destruct (toks_sim _ _ S) as [A B]. unfold ready, rem, to_come in *. now rewrite A, B. Qed.

  Lemma node_beside pre k P : k <> KRoot -> models cfg pre P (json_body cfg k) -> beside pre P -> beside pre (node k P).
  Proof.
    intros Kr M B f i ok f' S R Hp E. assert (Fs := sim_full _ _ S R). assert (Nf : ps_inc f = None) by apply S. unfold node in *.
    assert (Zf : try_reuse k f = Some (false, f)) by (unfold try_reuse; now rewrite Nf). rewrite Zf in E.
    destruct (P f) as [[o1 f1]|] eqn:X; [|discriminate]. destruct (M f o1 f1 Fs Hp X) as (new & e & ((Gt & Gl & Gi & Gr) & Sn & En) & Y1 & X1).
    destruct (reuse_total f i k S) as (r & i1 & Er). rewrite Er. destruct r.
    - destruct (hit f i k i1 S R Kr Er) as (n & ch & m & c' & Y & Ng & Sr & Lm & T1 & I1 & S1 & E1 & L1 & N1 & P1).
      assert (Z : e = []) by (apply X1; eauto). destruct (Y1 Z) as [-> Y']. destruct (yields_det cfg _ _ _ _ Y' _ _ Y) as [Q Q2].
      unfold finish_at, checkpoint in E. cbn [snd] in E. destruct (Nat.ltb_spec (length (ps_sink f1)) (length (ps_sink f))); [discriminate|]. rewrite Sn, skipn_app, skipn_all, Nat.sub_diag in E. cbn [app skipn] in E. rewrite Q, Ng in E.
      rewrite firstn_app, firstn_all, Nat.sub_diag in E. cbn [firstn] in E. rewrite app_nil_r in E. injection E as <- <-. exists i1. split; [reflexivity|].
      destruct S as (T & L & Ti & Ii & Si & Ei & Li & Ni & c & Ic & Pc). unfold GramProofs.sim. cbn [ps_toks ps_index ps_errs ps_srclen ps_inc].
      split; [congruence|]. split; [congruence|]. split; [congruence|].
      split. { rewrite I1. assert (Q' := f_equal (@length _) Q2). unfold rem, to_come in Q'. rewrite !map_length, !skipn_length, Gt, T in Q'. destruct Gr as [_ Gr]. rewrite Gt, T in Gr. lia. }
      split. { rewrite S1, Si. unfold sink_trees. cbn [ps_sink]. now rewrite map_app. }
      split; [rewrite En, Z, app_nil_r; congruence|]. split; [congruence|]. split; [congruence|]. exists c'. now split.
    - pose proof (miss f i k i1 S Er) as S1. cbn beta iota zeta. destruct (B f i1 o1 f1 S1 R Hp X) as (i2 & -> & S2).
      assert (Q : length (ps_sink i1) = length (ps_sink f)) by (destruct S1 as (_ & _ & _ & _ & Si & _); unfold sink_trees in Si; rewrite <- (map_length snd (ps_sink i1)), Si; apply map_length).
      assert (Any : forall s a b n, finish_at s (a, n) k = finish_at s (b, n) k) by reflexivity. unfold checkpoint in *. rewrite Q. rewrite (Any f1 _ 0) in E. rewrite (Any i2 _ 0).
      destruct (finish_at f1 (0, length (ps_sink f)) k) as [[itf f2]|] eqn:Fi; [|discriminate].
      destruct (finish_sim lex text2 es old _ _ _ _ _ _ S2 Fi) as (x & i3 & -> & S3 & _). injection E as <- <-. now exists i3.
  Qed.

  Section Items.
    Variables (close : nat) (item : parsing) (ig : gram).
    Hypothesis Hitem : models cfg any item ig.
    Hypothesis Hbeside : beside any item.

    Lemma loop_beside : forall fuel first, beside any (items_loop cfg close item fuel first).
    Proof.
      induction fuel as [|fu IH]; intros first f i ok f' S R _ E; [discriminate|]. cbn [items_loop] in *. rewrite (end_sim f i S). destruct (ps_not_at_end f); [|injection E as <- <-; now exists i].
      assert (Next : forall f i ok f', sim f i -> ready ignored f -> (match item f with None => None | Some (false, s3) => Some (false, s3) | Some (true, s3) => items_loop cfg close item fu false (json_skip s3) end) = Some (ok, f') ->
        exists i', (match item i with None => None | Some (false, s3) => Some (false, s3) | Some (true, s3) => items_loop cfg close item fu false (json_skip s3) end) = Some (ok, i') /\ sim f' i').
      { clear S R E f i ok f' first. intros f i ok f' S R E. destruct (item f) as [[b f3]|] eqn:Ei; [|discriminate]. pose proof (models_ready any item ig f i b f3 Hitem S R Logic.I Ei) as R3.
        destruct (Hbeside f i b f3 S R Logic.I Ei) as (i3 & -> & S3). destruct b; [|injection E as <- <-; now exists i3]. rewrite (ready_skip f3 R3) in E. rewrite (skip_sim f3 i3 S3 R3). exact (IH false f3 i3 ok f' S3 R3 Logic.I E). }
      rewrite (ready_skip f R) in E. rewrite (skip_sim f i S R). rewrite !(kind_sim f i _ S).
      destruct (at_kind f close); [injection E as <- <-; now exists i|].
      destruct (at_kind f KEof). { injection E as <- <-. eexists. split; [reflexivity|]. unfold eof_error. rewrite (srclen_sim f i S). now apply error_sim. }
      destruct first; [exact (Next f i ok f' S R E)|]. unfold eat in *. rewrite (kind_sim f i _ S). destruct (at_kind f KComma) eqn:Ak.
      2:{ injection E as <- <-. eexists. split; [reflexivity|]. unfold expected_error. rewrite (offset_sim f i S). now apply error_sim. }
      destruct (take_tok cfg f KComma (sim_full f i S R) Ak) as (n1 & R1 & _). assert (R2 : ready ignored (bump ignored f)) by apply (runs_full _ _ _ _ (sim_full f i S R) R1).
      pose proof (bump_sim ignored lex text2 es old f i S) as S2. rewrite (ready_skip _ R2) in E. rewrite (skip_sim _ _ S2 R2). rewrite (kind_sim _ _ _ S2).
      destruct (at_kind (bump ignored f) close); [|exact (Next _ _ ok f' S2 R2 E)]. destruct (jc_trailing cfg); injection E as <- <-; eexists; (split; [reflexivity|]); [exact S2|]. unfold trailing_error. rewrite (offset_sim _ _ S2). now apply error_sim.
    Qed.

    Lemma loop_ready : (forall ts ch rest, yields ignored (json_body cfg) ig ts ch rest -> exists k, hk ts = Some k /\ k <> close /\ k <> KEof) -> close <> KComma -> close <> KEof ->
      forall fuel first f i ok f', sim f i -> ready ignored f -> items_loop cfg close item fuel first f = Some (ok, f') -> ready ignored f'.
    Proof. intros H1 H2 H3 fuel first f i ok f' S R E. destruct (loop_models cfg close item ig Hitem H1 H2 H3 fuel first f ok f' (sim_full _ _ S R) E) as (new & e & Ru & _). apply (runs_full _ _ _ _ (sim_full _ _ S R) Ru). Qed.

    Lemma items_beside open : beside any (items cfg open close item).
    Proof.
      intros f i ok f' S R _ E. unfold items, eat in *. rewrite (kind_sim f i _ S). destruct (at_kind f open) eqn:Ak.
      2:{ injection E as <- <-. eexists. split; [reflexivity|]. unfold expected_error. rewrite (offset_sim f i S). now apply error_sim. }
      destruct (take_tok cfg f open (sim_full f i S R) Ak) as (n1 & R1 & _). assert (R2 : ready ignored (bump ignored f)) by apply (runs_full _ _ _ _ (sim_full f i S R) R1).
      pose proof (bump_sim ignored lex text2 es old f i S) as S2. rewrite (proj1 (toks_sim _ _ S2)). destruct (items_loop cfg close item (Datatypes.S (length (ps_toks (bump ignored f)))) true (bump ignored f)) as [[b f2]|] eqn:El; [|discriminate].
      destruct (loop_beside _ _ _ _ _ _ S2 R2 Logic.I El) as (i2 & -> & S3). destruct b; [|injection E as <- <-; now exists i2]. rewrite !(kind_sim f2 i2 _ S3). destruct (at_kind f2 close).
      - injection E as <- <-. eexists. split; [reflexivity|]. now apply bump_sim.
      - rewrite !(kind_sim f2 i2 _ S3), (end_sim _ _ S3). unfold eof_error, expected_error in *. rewrite (offset_sim f2 i2 S3), (srclen_sim f2 i2 S3). destruct (at_kind f2 KEof || negb (ps_not_at_end f2)); injection E as <- <-; eexists; (split; [reflexivity|]); now apply error_sim.
    Qed.
  End Items.

  Lemma entry_beside value : models cfg any value value_gram -> beside any value -> beside any (entry cfg value).
  Proof.
    intros M B. unfold entry. apply node_beside; [discriminate | |].
    - now apply entry_body_models.
    - intros f i ok f' S R _ E. cbv beta in *. rewrite !(kind_sim f i _ S). destruct (at_kind f KStringLit || jc_bare cfg && at_kind f KBareKey) eqn:A.
      2:{ injection E as <- <-. eexists. split; [reflexivity|]. unfold expected_error. rewrite (offset_sim f i S). now apply error_sim. }
      assert (Hk : exists k, at_kind f k = true) by (apply orb_true_iff in A as [A|A]; [eauto | apply andb_true_iff in A as [_ A]; eauto]). destruct Hk as [k Hk].
      destruct (take_tok cfg f k (sim_full f i S R) Hk) as (n1 & R1 & _). assert (F2 := runs_full _ _ _ _ (sim_full f i S R) R1). assert (R2 : ready ignored (bump ignored f)) by apply F2.
      pose proof (bump_sim ignored lex text2 es old f i S) as S2. rewrite (ready_skip _ R2) in E. rewrite (skip_sim _ _ S2 R2). unfold eat in *. rewrite (kind_sim _ _ _ S2). destruct (at_kind (bump ignored f) KColon) eqn:Ac.
      + destruct (take_tok cfg _ KColon F2 Ac) as (n2 & R3 & _). assert (F3 := runs_full _ _ _ _ F2 R3). pose proof (bump_sim ignored lex text2 es old _ _ S2) as S3. rewrite ready_skip in E by apply F3. rewrite (skip_sim _ _ S3) by apply F3. apply (B _ _ _ _ S3); [apply F3 | exact Logic.I | exact E].
      + assert (S3 : sim (expected_error (bump ignored f)) (expected_error (bump ignored i))) by (unfold expected_error; rewrite (offset_sim _ _ S2); now apply error_sim).
        rewrite ready_skip in E by exact R2. rewrite (skip_sim _ _ S3) by exact R2. apply (B _ _ _ _ S3); [exact R2 | exact Logic.I | exact E].
  Qed.

  Lemma value_beside : forall fuel, beside any (parse_value cfg fuel).
  Proof.
    induction fuel as [|fu IH]; intros f i ok f' S R _ E; [discriminate|]. cbn [parse_value] in *. rewrite (ready_skip f R) in E. rewrite (skip_sim f i S R). rewrite (current_sim f i S).
    pose proof (peek_hk f) as Pk. unfold peek_kind in Pk. unfold eof_error, unexpected_error in *. rewrite (offset_sim f i S), (srclen_sim f i S).
    destruct (ps_current f) as [t|]; cbn [option_map] in Pk; [|injection E as <- <-; eexists; (split; [reflexivity|]); now apply error_sim].
    destruct (tk_kind t =? KEof); [injection E as <- <-; eexists; (split; [reflexivity|]); now apply error_sim|].
    destruct (value_kind (tk_kind t)) as [v|] eqn:Vk; [|injection E as <- <-; eexists; (split; [reflexivity|]); now apply error_sim].
    refine (node_beside (fun o => o = Some (tk_kind t)) v _ _ (value_body_models cfg fu (tk_kind t) v (value_models cfg fu) Vk) _ f i ok f' S R (eq_sym Pk) E).
    - intros ->. unfold value_kind in Vk. repeat match goal with H : (if ?b then _ else _) = _ |- _ => destruct b; [discriminate|] end. discriminate.
    - clear f i ok f' S R E Pk. intros f i ok f' S R Hp E. destruct (v =? KObject).
      + eapply items_beside; [apply entry_models; apply value_models | apply entry_beside; [apply value_models | exact IH] | exact S | exact R | exact Logic.I | exact E].
      + destruct (v =? KArray).
        * eapply items_beside; [apply value_models | exact IH | exact S | exact R | exact Logic.I | exact E].
        * injection E as <- <-. eexists. split; [reflexivity|]. now apply bump_sim.
  Qed.
End Beside.
