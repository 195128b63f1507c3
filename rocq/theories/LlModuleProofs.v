(** Printing and building of LLVM IR modules. *)
From Verif Require Import Base Utf8 Utf8Facts ScanSpec CursorModel CursorSpec CursorProofs RopeModel LexModel LexSpec TreeModel TreeSpec TreeProofs VfsModel ParserModel ParserSpec ParserProofs.
From Verif Require Import JsonLangSpec LangModel LangSpec LangLexProofs LangParseProofs IniModel LlModel LlSpec LlLexProofs LlBuildSpec LlBuildProofs LlFunProofs LlFunBuild.
From Verif Require JsonAstBuildProofs BareProofs.

(** ** Items after a gap *)
Section Items.
  Variable (text : str) (toks : list token).
  Hypothesis Hfit : (Z.of_nat (toklen toks) < 2 ^ 32)%Z.
  Notation sees := (sees toks).

  Lemma global_run s1 tv w1 te w2 tk w3 bt tl tr :
    sees s1 (tv :: w1 :: te :: w2 :: tk :: w3 :: bt ++ tl) tr ->
    tk_kind tv = LvGlobalVar -> tk_kind w1 = LvWhitespace -> tk_kind te = LvEqual -> tk_kind w2 = LvWhitespace -> tk_kind tk = LvKeyword -> tk_kind w3 = LvWhitespace -> (tk_word text tk = lit "global" \/ tk_word text tk = lit "constant") ->
    Forall in_line bt -> (exists t r, bt = t :: r /\ tk_kind t <> LvWhitespace) -> (forall t, hd_error tl = Some t -> tk_kind t = LvNewline) ->
    exists s2, ll_global text s1 = Some (true, s2) /\ sees s2 tl (tr ++ [gnode LvGlobal (map tokleaf [tv; w1; te; w2; tk; w3] ++ [gnode LvIdentifier (map tokleaf bt)])]) /\ ps_errs s2 = ps_errs s1.
  Proof.
    intros V1 Kv K1 Ke K2 Kk K3 Tx F (b0 & br & Eb & Kb) H. unfold ll_global. cbv zeta. unfold andthen at 1. unfold ll_expect at 1, expect, eat. rewrite (sees_at _ _ _ _ _ V1), Kv, Nat.eqb_refl. change (bump ll_ignored s1) with (ll_bump s1).
    pose proof (bump_blank toks Hfit s1 tv w1 te _ tr V1 K1 ltac:(now rewrite Ke)) as V2. rewrite (gap_none _ _ _ _ _ V2) by (rewrite Ke; repeat split; discriminate).
    unfold andthen at 1. unfold ll_expect at 1, expect, eat. rewrite (sees_at _ _ _ _ _ V2), Ke, Nat.eqb_refl. change (bump ll_ignored (ll_bump s1)) with (ll_bump (ll_bump s1)).
    pose proof (bump_blank toks Hfit _ te w2 tk _ _ V2 K2 ltac:(now rewrite Kk)) as V3. rewrite (gap_none _ _ _ _ _ V3) by (rewrite Kk; repeat split; discriminate). set (s3 := ll_bump (ll_bump s1)) in *.
    assert (M : ll_modifiers text s3 = ll_bump s3).
    { unfold ll_modifiers. cbv zeta. rewrite loop_stop.
      - now rewrite (sees_end _ _ _ _ V3).
      - rewrite (sees_end _ _ _ _ V3). unfold at_storage, at_word, ll_word. rewrite !(sees_at _ _ _ _ _ V3), Kk, Nat.eqb_refl, (sees_current _ _ _ _ V3). cbn [hd_error andb]. unfold tk_word in Tx. destruct Tx as [-> | ->]; reflexivity. }
    rewrite M. assert (Ib : ll_ignored (tk_kind b0) = false) by (apply not_ign; [exact Kb | rewrite Eb in F; apply Forall_inv in F; apply F]). assert (Gb : gapless (tk_kind b0)) by (rewrite Eb in F; apply Forall_inv in F; destruct F; now repeat split).
    pose proof V3 as V3'. rewrite Eb in V3'. cbn [app] in V3'. pose proof (bump_blank toks Hfit _ tk w3 b0 _ _ V3' K3 Ib) as V4. rewrite (gap_none _ _ _ _ _ V4 Gb). set (s4 := ll_bump s3) in *.
    change (b0 :: br ++ tl) with ((b0 :: br) ++ tl) in V4. rewrite <- Eb in V4. change (fun s : pstate => negb (at_kind s LvNewline) && negb (at_kind s LvComment)) with go_line.
    destruct (line_run toks Hfit (length (ps_toks s4) - ps_index s4) bt tl s4 _ V4 F) as [V5 E5]; [now rewrite Eb | exact H | rewrite (sees_length _ _ _ _ V4), app_length; lia|]. fold (ll_loop go_line ll_bump s4) in V5, E5. set (s5 := ll_loop go_line ll_bump s4) in *.
    destruct (checkpoint_at toks s4 _ _ V4) as (j & Ej). rewrite Ej. destruct (finish_to toks Hfit s5 tl _ (map tokleaf bt) j LvIdentifier V5) as (s6 & E6 & V6 & Er6). unfold andthen. rewrite E6. rewrite <- !app_assoc in V6. cbn [app] in V6.
    destruct (checkpoint_at toks s1 _ _ V1) as (i & Ei). rewrite Ei. destruct (finish_to toks Hfit s6 tl tr _ i LvGlobal V6) as (s7 & E7 & V7 & Er7). rewrite E7. exists s7. split; [reflexivity|]. split; [exact V7|]. rewrite Er7, Er6, E5. unfold s4, s3. now rewrite !bump_err.
  Qed.

  (** A gap of line ends, then an item that [f] reads *)
  Lemma after_gap (f : step) s nl t rest tl trees g :
    sees s (nl ++ t :: rest) trees -> Forall (fun n => tk_kind n = LvNewline) nl -> gapless (tk_kind t) ->
    (forall s1 tr, sees s1 (t :: rest) tr -> (if at_kind s1 LvGlobalVar then ll_global text s1 else if at_word text s1 (lit "define") then ll_function s1 else Some (true, ps_advance ll_ignored s1)) = f s1) ->
    (forall s1 tr, sees s1 (t :: rest) tr -> exists s2, f s1 = Some (true, s2) /\ sees s2 tl (tr ++ g) /\ ps_errs s2 = ps_errs s1) ->
    exists s', ll_item text s = Some (true, s') /\ sees s' tl (trees ++ [gnode LvItem (map tokleaf nl ++ g)]) /\ ps_errs s' = ps_errs s.
  Proof.
    intros V Fn Gt Hf Hr.
    assert (V1 : sees (ll_skip s) (t :: rest) (trees ++ map tokleaf nl) /\ ps_errs (ll_skip s) = ps_errs s).
    { destruct nl as [| n nl]; [cbn [app map] in *; rewrite app_nil_r, (gap_none _ _ _ _ _ V Gt); now split|]. apply skip_to; try assumption.
      - eapply Forall_impl; [|exact Fn]. intros x ->. reflexivity.
      - apply Forall_inv in Fn. now rewrite Fn.
      - intros x [= <-]. exact Gt. }
    destruct V1 as [V1 E1]. unfold ll_item. cbv zeta. rewrite (sees_end _ _ _ _ V1). cbn [negb]. unfold andthen. rewrite (Hf _ _ V1). destruct (Hr _ _ V1) as (s2 & -> & V2 & E2). destruct (checkpoint_at toks s _ _ V) as (i & Ei). rewrite Ei. rewrite <- app_assoc in V2.
    destruct (finish_to toks Hfit s2 tl trees _ i LvItem V2) as (s3 & E3 & V3 & Er3). exists s3. split; [exact E3|]. split; [exact V3 | congruence].
  Qed.
  Lemma end_run s nl t trees : sees s (nl ++ [t]) trees -> Forall (fun n => tk_kind n = LvNewline) nl -> tk_kind t = LvError ->
    exists s', ll_item text s = Some (true, s') /\ sees s' [] (trees ++ [gnode LvItem (map tokleaf nl)]) /\ ps_errs s' = ps_errs s.
  Proof.
    intros V Fn K. rewrite <- (app_nil_r (map tokleaf nl)). apply (after_gap (fun s => Some (true, ps_advance ll_ignored s)) s nl t [] [] trees []); try assumption.
    - rewrite K. repeat split; discriminate.
    - intros s1 tr V1. unfold at_word. rewrite !(sees_at _ _ _ _ _ V1), K. reflexivity.
    - intros s1 tr V1. exists (ps_advance ll_ignored s1). split; [reflexivity|]. split; [exact (BareProofs.sees_advance ll_ignored toks Hfit s1 t [] tr V1) | apply BareProofs.advance_errs].
  Qed.
End Items.

(** ** Modules *)
Inductive mitem := MG (x : lglobal * list piece) | MF (f : pfun).
Definition item_of (m : mitem) : litem := match m with MG x => LItemGlobal (fst x) | MF f => LItemFunction (fun_of f) end.
Definition mpieces (m : mitem) : list piece := match m with MG x => front (fst x) ++ snd x | MF f => ffront f end.
Definition mgreen (m : mitem) : green := match m with MG x => gnode LvGlobal (map pleaf (front (fst x)) ++ [gnode LvIdentifier (map pleaf (snd x))]) | MF f => gnode LvFunction (fchildren f) end.
Definition after (m : mitem) : list piece := match m with MG _ => [] | MF _ => [nlp] end.
Definition sepm (m : mitem) (r : list mitem) : list piece := after m ++ match r with [] => [] | _ => [nlp] end.
Fixpoint mrows (g : list piece) (ms : list mitem) : list piece := match ms with [] => g | m :: r => g ++ mpieces m ++ mrows (sepm m r) r end.
Fixpoint mgreens (g : list piece) (ms : list mitem) : list green :=
  match ms with [] => match g with [] => [] | _ => [gnode LvItem (map pleaf g)] end | m :: r => gnode LvItem (map pleaf g ++ [mgreen m]) :: mgreens (sepm m r) r end.
(** The end token stands alone after a function *)
Fixpoint ends (g : list piece) (ms : list mitem) (T : list piece) : Prop := match ms with [] => match g with [] => T = [] | _ => T = [end_piece] end | m :: r => ends (sepm m r) r T end.
Definition nls (g : list piece) : Prop := Forall (fun p => p = nlp) g.
Lemma sep_nls m r : nls (sepm m r).
Proof. unfold sepm. destruct m, r; repeat constructor. Qed.

Section Modules.
  Variables alpha alnum : Z -> bool.
  Hypothesis Tb : tables alpha alnum.
  Definition mok (m : mitem) : Prop := match m with MG x => row_ok alpha alnum x | MF f => pfun_ok alpha alnum f end.
  Definition mfit (m : mitem) : Prop := match m with MG x => row_fit alpha alnum x | MF f => pfun_ok alpha alnum f end.

  Lemma mrow_head m r T : ends (sepm m r) r T -> sepm m r = [] /\ mrows (sepm m r) r ++ T = [] \/ exists x, mrows (sepm m r) r ++ T = nlp :: x.
  Proof.
    intros E. destruct m as [x | f]; [destruct r as [| m r]; [left; cbn in E; subst T; now split|]|]; right; unfold sepm; [|destruct r]; eexists; reflexivity.
  Qed.
  Lemma m_text r : Forall mok r -> forall g, r <> [] -> text_of_pieces (mrows g r) = text_of_pieces g ++ ll_print (map item_of r).
  Proof.
    induction 1 as [| m r M _ IH]; intros g N; [contradiction|]. cbn [mrows map]. rewrite !pieces_app. f_equal.
    assert (Em : text_of_pieces (mpieces m) ++ text_of_pieces (after m) = ll_print_item (item_of m)).
    { destruct m as [[gl bp] | f]; cbn [mpieces after item_of ll_print_item fst snd].
      - change (text_of_pieces []) with (@nil Z). rewrite app_nil_r. pose proof (rows_text alpha alnum [(gl, bp)] (Forall_cons (P := row_ok alpha alnum) (gl, bp) M (Forall_nil _))) as R. cbn [rows gap app map fst ll_print ll_print_item] in R. now rewrite app_nil_r in R.
      - apply fun_text, (ok_fit alpha alnum), M. }
    destruct r as [| m' r].
    - cbn [mrows map ll_print]. unfold sepm. rewrite app_nil_r. exact Em.
    - rewrite IH by discriminate. unfold sepm. rewrite pieces_app. change (ll_print (item_of m :: map item_of (m' :: r))) with (ll_print_item (item_of m) ++ [10%Z] ++ ll_print (map item_of (m' :: r))). rewrite <- Em, <- !app_assoc. reflexivity.
  Qed.
  Lemma m_whole r : Forall mok r -> forall g, nls g -> whole alpha alnum (mrows g r).
  Proof.
    assert (Wn : forall g ps, nls g -> whole alpha alnum ps -> whole alpha alnum (g ++ ps)) by (induction 1 as [| p g -> _ IH]; intros W; [exact W | cbn [app]; apply w_nl, IH, W]).
    induction 1 as [| m r M _ IH]; intros g G; cbn [mrows]; [rewrite <- (app_nil_r g); apply Wn; [exact G | constructor]|]. apply Wn; [exact G|]. specialize (IH (sepm m r) (sep_nls m r)).
    destruct m as [[gl bp] | f]; [|apply (w_fun alpha alnum Tb); [exact M | exact IH]]. destruct M as [Mg Mc]. cbn [mpieces fst snd] in *. rewrite <- app_assoc. unfold whole. rewrite pieces_app. apply front_cut; [exact Tb | exact Mg|]. rewrite pieces_app, (cut_text _ _ _ Mc). apply (cut_more2 alpha alnum Tb); [exact Mc | exact (line_chars alpha alnum gl Mg) | | exact IH].
    intros c E. left. destruct r as [| m' r]; [discriminate|]. cbn in E. now injection E as <-.
  Qed.

  Definition sc (ps : list piece) : Prop := Forall is_scalar (text_of_pieces ps).
  Lemma sc_app a b : sc a -> sc b -> sc (a ++ b).
  Proof. intros A B. unfold sc. rewrite pieces_app. apply Forall_app. now split. Qed.
  Lemma sc_cons p b : Forall is_scalar (snd p) -> sc b -> sc (p :: b).
  Proof. intros A B. unfold sc. change (text_of_pieces (p :: b)) with (snd p ++ text_of_pieces b). apply Forall_app. now split. Qed.
  Lemma sc_low p b : Forall (fun c => (0 <= c < 128)%Z) (snd p) -> sc b -> sc (p :: b).
  Proof. intros A. apply sc_cons. eapply Forall_impl; [|exact A]. intros c H. unfold is_scalar. cbn beta in H. lia. Qed.
  Lemma sc_nil : sc [].
  Proof. constructor. Qed.
  Lemma plain_sc w : Forall (vplain alpha) w -> Forall is_scalar w.
  Proof. intros F. eapply Forall_impl; [|exact F]. now intros c [H _]. Qed.
  Lemma name_sc w : vname_of alpha alnum w -> Forall is_scalar w.
  Proof. intros F. now apply plain_sc, (names_plain alpha alnum). Qed.
  Lemma sigil_sc c w : (0 <= c < 128)%Z -> vname_of alpha alnum w -> Forall is_scalar (c :: w).
  Proof. intros H F. constructor; [unfold is_scalar; lia | now apply name_sc]. Qed.
  Ltac low := repeat (apply Forall_cons; [lia|]); apply Forall_nil.
  Lemma cut_sc b bp : cut (ll_piece alpha alnum) b bp -> Forall (body_char alpha) b -> sc bp.
  Proof. intros C F. unfold sc. rewrite (cut_text _ _ _ C). eapply Forall_impl; [|exact F]. intros c. apply body_scalar. Qed.
  Lemma insts_sc l : Forall (inst_ok alpha alnum) l -> sc (ipieces l) /\ sc (ilead l).
  Proof.
    assert (B : forall l, sc (ilead l)) by (intros [| x r]; [apply sc_nil|]; apply sc_low; [low|]; apply sc_low; [low | apply sc_nil]).
    intros F. split; [|apply B]. induction F as [| [i bp] r [G C] _ IH]; [apply sc_nil|]. cbn [ipieces fst snd] in *. unfold icore. cbn [fst snd app]. apply sc_cons.
    - destruct G as (R & O & _). unfold ihead. destruct (li_result i); cbn [snd]; [apply sigil_sc; [lia | exact R] | apply name_sc, O].
    - apply sc_low; [low|]. apply sc_app; [exact (cut_sc _ _ C (itail_body alpha alnum i G))|]. apply sc_low; [low|]. apply sc_app; [apply B | exact IH].
  Qed.
  Lemma fun_sc f : pfun_ok alpha alnum f -> sc (ffront f).
  Proof.
    intros (N & [[_ R] _] & C & P & B & _). unfold ffront. apply sc_low; [apply Forall_forall; intros c I; vm_compute in I; lia|]. apply sc_low; [low|]. apply sc_app; [apply sc_app; [exact (cut_sc _ _ C (plain_body alpha _ R)) | apply sc_low; [low | apply sc_nil]]|].
    apply sc_cons; [apply sigil_sc; [lia | exact N]|]. apply sc_low; [low|]. apply sc_app.
    { clear - P. induction P as [| [p bp] r [[[[_ Gt] _] Gn] Cp] _ IH]; [apply sc_nil|]. cbn [ppieces fst snd] in *. unfold pcore. cbn [fst snd]. apply sc_app; [apply sc_app; [exact (cut_sc _ _ Cp (plain_body alpha _ Gt))|]; apply sc_low; [low|]; apply sc_cons; [apply sigil_sc; [lia | exact Gn] | apply sc_nil]|].
      apply sc_app; [|exact IH]. destruct r; [apply sc_nil|]. apply sc_low; [low|]. apply sc_low; [low | apply sc_nil]. }
    apply sc_low; [low|]. apply sc_low; [low|]. apply sc_low; [low|]. apply sc_app; [unfold sep0; apply sc_low; [low|]; destruct (pf_blocks f) as [| [[l|] is] bs]; try apply sc_nil; apply sc_low; [low|]; apply sc_low; [low | apply sc_nil]|]. apply sc_app; [|apply sc_low; [low | apply sc_nil]].
    clear - B. induction B as [| [lab is] bs [Fi L] _ IH]; [apply sc_nil|]. cbn [flat_map fst snd] in *. apply sc_app; [|exact IH]. destruct (insts_sc is Fi) as [S1 S2]. unfold bpieces. cbn [fst snd]. destruct lab as [l|]; [|exact S1]. apply sc_cons; [apply name_sc, L|]. apply sc_low; [low|]. apply sc_low; [low|]. now apply sc_app.
  Qed.
  Lemma m_sc r : Forall mok r -> forall g, nls g -> sc (mrows g r).
  Proof.
    assert (Wn : forall g, nls g -> sc g) by (induction 1 as [| p g -> _ IH]; [apply sc_nil | apply sc_low; [low | exact IH]]).
    induction 1 as [| m r M _ IH]; intros g G; cbn [mrows]; [now apply Wn|]. apply sc_app; [now apply Wn|]. apply sc_app; [|apply IH, sep_nls]. destruct m as [[gl bp] | f]; [|now apply fun_sc]. cbn [mpieces fst snd]. pose proof (rows_scalar alpha alnum [(gl, bp)] (Forall_cons (P := row_ok alpha alnum) (gl, bp) M (Forall_nil _)) true) as S. cbn [rows gap app] in S. now rewrite app_nil_r in S.
  Qed.
End Modules.

Section Whole.
  Variables alpha alnum : Z -> bool.
  Hypothesis Tb : tables alpha alnum.
  Variable cs : list Z.
  Hypothesis Sc : Forall is_scalar cs.

  (** ** Building *)
  Lemma m_item m : measured [mgreen m] (text_of_pieces (mpieces m)).
  Proof. destruct m as [[g bp] | f]; cbn [mgreen mpieces fst snd]; apply m_node; [|apply m_fun]. rewrite pieces_app. apply m_app; [apply m_leaves | apply m_node, m_leaves]. Qed.
  Lemma build_child m p q : mfit alpha alnum m -> cs = p ++ text_of_pieces (mpieces m) ++ q -> ll_build_child (encode cs) (length (encode p), mgreen m) = [item_of m].
  Proof.
    intros M E. destruct m as [[g bp] | f]; cbn [mgreen mpieces item_of fst snd] in *.
    - destruct M as (G & Eb & _). cbn [fst snd] in *. pose proof (build_item alpha alnum Tb true g bp p q G Eb) as B. unfold row_text in B. cbn [gap app fst snd] in B. rewrite <- E in B. specialize (B Sc). unfold item_green, ll_build_item in B. cbn [gap map app fst snd] in B. unfold gnode at 1 in B. cbn iota in B. rewrite Nat.eqb_refl in B. cbn [ll_placed flat_map] in B. rewrite app_nil_r in B. exact B.
    - pose proof (build_fun alpha alnum Tb cs Sc f M p q E) as B. unfold ll_build_child. cbn [fst snd]. unfold gnode at 1. cbn iota. change (LvFunction =? LvGlobal) with false. rewrite Nat.eqb_refl. cbn iota. now rewrite B.
  Qed.
  Lemma m_builds ms : Forall (mfit alpha alnum) ms -> forall g pre q, cs = pre ++ text_of_pieces (mrows g ms) ++ q -> flat_map (ll_build_item (encode cs)) (ll_placed (length (encode pre)) (mgreens g ms)) = map item_of ms.
  Proof.
    assert (Lf : forall ps o, flat_map (ll_build_child (encode cs)) (ll_placed o (map pleaf ps)) = []) by (induction ps as [| x ps IHp]; intros o; [reflexivity | exact (IHp _)]).
    assert (Im : forall o ch, ll_build_item (encode cs) (o, gnode LvItem ch) = flat_map (ll_build_child (encode cs)) (ll_placed o ch)) by reflexivity.
    induction 1 as [| m r M _ IH]; intros g pre q E; cbn [mgreens mrows map] in *.
    - destruct g as [| x g]; [reflexivity|]. cbn [ll_placed flat_map]. rewrite Im, Lf. reflexivity.
    - rewrite !pieces_app, <- !app_assoc in E. change (gnode LvItem (map pleaf g ++ [mgreen m]) :: ?y) with ([gnode LvItem (map pleaf g ++ [mgreen m])] ++ y).
      rewrite (seg pre _ _ _ (m_node LvItem _ _ (m_app _ _ _ _ (m_leaves g) (m_item m)))), flat_map_app. rewrite (IH _ _ q) by (rewrite E; now rewrite <- !app_assoc). cbn [ll_placed flat_map]. rewrite Im, app_nil_r, (seg pre _ _ _ (m_leaves g)), flat_map_app, Lf. cbn [app ll_placed flat_map]. rewrite app_nil_r.
      rewrite (build_child m _ _ M (eq_trans E (app_assoc _ _ _))). reflexivity.
  Qed.

  (** ** Parsing *)
  Variable toks : list token.
  Hypothesis Hfit : (Z.of_nat (toklen toks) < 2 ^ 32)%Z.
  Notation sees := (sees toks).

  Lemma fun_run f off s u tl trees : pfun_ok alpha alnum f -> sees s (spans off (ffront f) ++ u :: tl) trees -> ll_ignored (tk_kind u) = false ->
    exists s', ll_function s = Some (true, s') /\ sees s' (u :: tl) (trees ++ [mgreen (MF f)]) /\ ps_errs s' = ps_errs s.
  Proof.
    intros (N & [Wr R] & C & P & B & L) V Ku. cbn [mgreen]. unfold fchildren, ffront in *.
    match type of V with LangParseProofs.sees _ _ (spans _ (?d :: bl :: ?rt ++ ?nm :: ?lp :: ?pp ++ ?rp :: bl :: ?lb :: ?s0 ++ ?bp ++ [?rb]) ++ _) _ => change (d :: bl :: rt ++ nm :: lp :: pp ++ rp :: bl :: lb :: s0 ++ bp ++ [rb]) with ([d; bl] ++ rt ++ [nm; lp] ++ pp ++ [rp; bl; lb] ++ s0 ++ bp ++ [rb]) in V end.
    remember (pf_rp f ++ [bl]) as rtp eqn:Ertp. rewrite !spans_app in V. repeat match type of V with context [spans ?o _] => lazymatch o with context [Nat.add] => let x := fresh "o" in set (x := o) in V | _ => fail end end.
    match type of V with context [spans ?o (ppieces _)] => destruct (params_toks alpha alnum _ P o) as (ps & Ep & Op & Gp & _) end. rewrite <- Ep in V.
    match type of V with context [spans ?o (flat_map bpieces _)] => destruct (blocks_toks alpha alnum Tb _ B L o) as (es & Ee & Oe & Ge) end. rewrite <- Ee in V.
    match type of V with context [spans ?o (sep0 _)] => set (sp := spans o (sep0 (pf_blocks f))) in V end. match type of V with context [spans ?o rtp] => set (rt := spans o rtp) in V end.
    assert (Ks : sep_ok sp /\ map tokleaf sp = map pleaf (sep0 (pf_blocks f))).
    { unfold sp, sep0. split; [|apply spans_leaves; destruct (pf_blocks f) as [| [[l|] is] bs]; repeat constructor; discriminate]. unfold nlp. cbn [spans app]. eexists _, _. split; [reflexivity|]. split; [reflexivity|]. destruct (pf_blocks f) as [| [[l|] is] bs]; repeat constructor. }
    assert (Kr : Forall (fun p : piece => exists k, fst p = Some k /\ k <> LvGlobalVar /\ k <> LvNewline /\ k <> LvComment) rtp).
    { rewrite Ertp. apply Forall_app. split; [|constructor; [eexists; split; [reflexivity | repeat split; discriminate] | constructor]]. pose proof (body_kinds alpha alnum _ _ C (plain_body alpha _ (proj2 Wr))) as K. pose proof (cut_kinds alpha alnum [64%Z] _ _ ltac:(intros c [<- | []]; exists LvGlobalVar; cbn; tauto) C R) as K2.
      rewrite Forall_forall in *. intros q Iq. destruct (K q Iq) as (k & E & K3). exists k. split; [exact E|]. split; [|exact K3]. intros ->. apply (K2 q Iq 64%Z LvGlobalVar); [now left | cbn; tauto | exact E]. }
    destruct (spans_kinds _ _ Kr (off + length (encode (text_of_pieces [(Some LvKeyword, lit "define"); bl])))) as [Kr1 Kr2]. destruct Ks as [Ks1 Ks2].
    assert (Rt : ret_ok rt). { split; [exact Kr1|]. unfold rt. rewrite Ertp. destruct (head_gapless alpha alnum _ _ Wr C) as (k & s0 & q & -> & G). cbn [app spans]. eexists _, _. split; [reflexivity | exact G]. }
    unfold bl in V at 1 2. cbn [spans] in V. repeat (first [rewrite <- app_assoc in V | progress (cbn [app] in V)]).
    match type of V with LangParseProofs.sees _ _ (?td :: ?w0 :: rt ++ ?tg :: ?tlp :: _ ++ ?tr :: ?w1 :: ?tb :: sp ++ _ ++ ?te :: u :: tl) _ =>
      destruct (function_run toks Hfit s td [w0] rt tg tlp ps tr [w1] tb sp es te u tl trees) as (s' & E' & V' & Er') end;
      try first [exact V | reflexivity | exact Rt | exact Op | exact Ks1 | exact Oe | exact Ku | (constructor; [reflexivity | constructor])].
    exists s'. split; [exact E'|]. split; [|exact Er']. match goal with |- LangParseProofs.sees _ _ _ (_ ++ [?t]) => match type of V' with LangParseProofs.sees _ _ _ (_ ++ [?t']) => replace t with t'; [exact V'|] end end.
    unfold fun_tree. rewrite Gp, Ge. change (map tokleaf rt = map pleaf rtp) in Kr2. rewrite Kr2. cbn [map]. rewrite Ks2. unfold bl. rewrite !tokleaf_span. reflexivity.
  Qed.

  Lemma word_here p w q k s rest trees : cs = p ++ w ++ q -> sees s (Token k (length (encode p)) (length (encode p) + length (encode w)) :: rest) trees -> tk_word (encode cs) (Token k (length (encode p)) (length (encode p) + length (encode w))) = encode w.
  Proof. intros E V. unfold tk_word. cbn [tk_start tk_end]. rewrite E in Sc |- *. exact (proj1 (JsonAstBuildProofs.text_here _ _ _ Sc)). Qed.
  Lemma nls_toks g : nls g -> forall off, Forall (fun n => tk_kind n = LvNewline) (spans off g) /\ map tokleaf (spans off g) = map pleaf g.
  Proof. intros G. apply (spans_kinds (fun k => k = LvNewline)). eapply Forall_impl; [|exact G]. intros p ->. now exists LvNewline. Qed.

  Lemma one_run m g pre s tl trees q : mfit alpha alnum m -> nls g -> cs = (pre ++ text_of_pieces g) ++ text_of_pieces (mpieces m) ++ q ->
    sees s (spans (length (encode pre)) (g ++ mpieces m) ++ tl) trees -> (forall t, hd_error tl = Some t -> tk_kind t = LvNewline) -> (match m with MG _ => True | MF _ => tl <> [] end) ->
    exists s', ll_item (encode cs) s = Some (true, s') /\ sees s' tl (trees ++ [gnode LvItem (map pleaf g ++ [mgreen m])]) /\ ps_errs s' = ps_errs s.
  Proof.
    intros M G E V Ht Hn. rewrite spans_app, <- app_assoc in V. set (p := pre ++ text_of_pieces g) in *. replace (length (encode pre) + length (encode (text_of_pieces g))) with (length (encode p)) in V by (unfold p; now rewrite encode_app, app_length).
    destruct (nls_toks g G (length (encode pre))) as [N1 N2]. rewrite <- N2. set (nl := spans (length (encode pre)) g) in *. destruct m as [[gl bp] | f].
    - destruct M as (Gg & Eb & Fb & (k0 & s0 & bp0 & E0 & K0)). cbn [mpieces mgreen fst snd] in *. rewrite spans_app, <- app_assoc in V. set (bt := spans (length (encode p) + length (encode (text_of_pieces (front gl)))) bp) in *. rewrite pieces_app in E.
      unfold front in V. cbn [spans app] in V. match type of V with LangParseProofs.sees _ _ (nl ++ ?tv :: ?w1 :: ?te :: ?w2 :: ?tk :: ?w3 :: bt ++ tl) _ =>
        apply (after_gap (encode cs) toks Hfit (ll_global (encode cs)) s nl tv (w1 :: te :: w2 :: tk :: w3 :: bt ++ tl) tl trees); try assumption end.
      + repeat split; discriminate.
      + intros s1 tr V1. now rewrite (sees_at _ _ _ _ _ V1).
      + intros s1 tr V1.
        match type of V1 with LangParseProofs.sees _ _ (?tv :: ?w1 :: ?te :: ?w2 :: ?tk :: ?w3 :: bt ++ tl) _ => destruct (global_run (encode cs) toks Hfit s1 tv w1 te w2 tk w3 bt tl tr V1) as (s2 & E2 & V2 & Er2); try reflexivity end.
        * assert (Tk : forall o, o = length (encode (p ++ (64%Z :: lg_name gl) ++ [32%Z] ++ [61%Z] ++ [32%Z])) -> tk_word (encode cs) (Token LvKeyword o (o + length (encode (storage gl)))) = encode (storage gl)).
          { intros o ->. assert (Ec : cs = (p ++ (64%Z :: lg_name gl) ++ [32%Z] ++ [61%Z] ++ [32%Z]) ++ storage gl ++ ([32%Z] ++ text_of_pieces bp ++ q)).
            { rewrite E. unfold front, text_of_pieces at 1. cbn [flat_map snd]. rewrite app_nil_r. repeat (first [rewrite <- app_assoc | progress (cbn [app])]). reflexivity. }
            unfold tk_word. cbn [tk_start tk_end]. rewrite Ec in Sc |- *. exact (proj1 (JsonAstBuildProofs.text_here _ _ _ Sc)). }
          rewrite Tk; [unfold storage; destruct (lg_constant gl); [right | left]; reflexivity|]. rewrite !encode_app, !app_length. cbn [length]. lia.
        * apply in_lines, Fb.
        * unfold bt. rewrite E0. cbn [spans app]. eexists _, _. split; [reflexivity | exact K0].
        * exact Ht.
        * exists s2. split; [exact E2|]. split; [|exact Er2]. match type of V2 with LangParseProofs.sees _ _ _ (_ ++ [?t]) => match goal with |- LangParseProofs.sees _ _ _ (_ ++ [?t']) => replace t' with t; [exact V2|] end end.
          f_equal. unfold bt. rewrite (spans_leaves bp) by (apply (in_lines bp Fb 0)). unfold front. cbn [map]. rewrite !tokleaf_span. reflexivity.
    - cbn [mfit mpieces] in *. destruct tl as [| u tl]; [contradiction|]. specialize (Ht u eq_refl).
      assert (Eh : exists r, spans (length (encode p)) (ffront f) = Token LvKeyword (length (encode p)) (length (encode p) + length (encode (lit "define"))) :: r) by (unfold ffront; cbn [spans app]; eexists; reflexivity). destruct Eh as (r & Eh).
      pose proof V as V0. rewrite Eh in V0. cbn [app] in V0. apply (after_gap (encode cs) toks Hfit ll_function s nl _ (r ++ u :: tl) (u :: tl) trees _ V0); try assumption.
      + repeat split; discriminate.
      + intros s1 tr V1. rewrite (sees_at _ _ _ _ _ V1). cbn [tk_kind]. change (LvKeyword =? LvGlobalVar) with false. unfold at_word, ll_word. rewrite (sees_at _ _ _ _ _ V1), (sees_current _ _ _ _ V1). cbn [tk_kind hd_error]. rewrite Nat.eqb_refl.
        assert (Ed : exists q', cs = p ++ lit "define" ++ q') by (rewrite E; unfold ffront; eexists; cbn [app]; change (text_of_pieces ((Some LvKeyword, lit "define") :: ?x)) with (lit "define" ++ text_of_pieces x); rewrite <- app_assoc; reflexivity). destruct Ed as (q' & Ed).
        pose proof (word_here p (lit "define") q' LvKeyword s1 _ tr Ed V1) as W. unfold tk_word in W. cbn [tk_start tk_end] in W. cbn [tk_start tk_end]. rewrite W. reflexivity.
      + intros s1 tr V1. apply (fun_run f (length (encode p)) s1 u tl tr M); [rewrite Eh; exact V1 | now rewrite Ht].
  Qed.

  Lemma all_run ms : Forall (mfit alpha alnum) ms -> forall g pre s trees fuel T, nls g -> ends g ms T -> cs = pre ++ text_of_pieces (mrows g ms) -> sees s (spans (length (encode pre)) (mrows g ms ++ T)) trees -> S (length ms) < fuel ->
    exists s', ll_items (encode cs) fuel s = Some (true, s') /\ sees s' [] (trees ++ mgreens g ms) /\ ps_errs s' = ps_errs s.
  Proof.
    induction 1 as [| m r M _ IH]; intros g pre s trees fuel T G En E V L; (destruct fuel as [| fuel]; [cbn in L; lia|]); cbn [ll_items mrows mgreens ends] in *.
    - destruct g as [| x g]; subst T; [cbn [app spans] in V; rewrite (sees_end _ _ _ _ V); exists s; split; [reflexivity|]; rewrite app_nil_r; split; [exact V | reflexivity]|].
      destruct (nls_toks _ G (length (encode pre))) as [N1 N2]. rewrite spans_app in V. set (nl := spans (length (encode pre)) (x :: g)) in *. cbn [spans end_piece app] in V.
      assert (Ne : ps_not_at_end s = true). { destruct nl as [| n nl'] eqn:Enl; [discriminate N2|]. cbn [app] in V. now rewrite (sees_end _ _ _ _ V). }
      rewrite Ne. destruct (end_run (encode cs) toks Hfit s nl _ trees V N1 eq_refl) as (s1 & E1 & V1 & Er1). unfold andthen. rewrite E1. destruct fuel as [| fuel]; [cbn in L; lia|]. cbn [ll_items]. rewrite (sees_end _ _ _ _ V1). exists s1. split; [reflexivity|]. rewrite <- N2. split; [exact V1 | exact Er1].
    - rewrite <- !app_assoc in V. rewrite (app_assoc g) in V. rewrite spans_app in V. rewrite pieces_app in E. rewrite pieces_app in E. set (tl := spans _ (mrows (sepm m r) r ++ T)) in V.
      assert (Hd : (forall t, hd_error tl = Some t -> tk_kind t = LvNewline) /\ match m with MG _ => True | MF _ => tl <> [] end).
      { unfold tl. destruct (mrow_head m r T En) as [[E0 E1] | (x & E1)]; rewrite E1; [|unfold nlp; cbn [spans app hd_error]; split; [intros t [= <-]; reflexivity | now destruct m]]. split; [discriminate|]. destruct m; [exact I|]. destruct r; discriminate. }
      destruct (one_run m g pre s tl trees (text_of_pieces (mrows (sepm m r) r)) M G) as (s1 & E1 & V1 & Er1); [rewrite E; now rewrite <- app_assoc | exact V | apply Hd | apply Hd|].
      assert (Ne : ps_not_at_end s = true). { assert (Nz : exists a b, spans (length (encode pre)) (g ++ mpieces m) ++ tl = a :: b). { destruct G as [| ? g -> _]; [destruct m as [[gl bp] | f] | unfold nlp]; eexists _, _; reflexivity. } destruct Nz as (a & b & Nz). rewrite Nz in V. now rewrite (sees_end _ _ _ _ V). }
      rewrite Ne. unfold andthen. rewrite E1. unfold tl in V1. rewrite pieces_app in V1.
      replace (length (encode pre) + length (encode (text_of_pieces g ++ text_of_pieces (mpieces m)))) with (length (encode (pre ++ text_of_pieces g ++ text_of_pieces (mpieces m)))) in V1 by (now rewrite (encode_app pre), app_length).
      assert (E3 : cs = (pre ++ text_of_pieces g ++ text_of_pieces (mpieces m)) ++ text_of_pieces (mrows (sepm m r) r)) by (rewrite E; now rewrite <- !app_assoc). assert (L3 : S (length r) < fuel) by (cbn [length] in L; lia).
      destruct (IH (sepm m r) (pre ++ text_of_pieces g ++ text_of_pieces (mpieces m)) s1 _ fuel T (sep_nls m r) En E3 V1 L3) as (s' & E' & V' & Er'). exists s'. split; [exact E'|]. rewrite <- app_assoc in V'. split; [exact V' | congruence].
  Qed.
End Whole.

Section Round.
  Variables alpha alnum : Z -> bool.
  Hypothesis Tb : tables alpha alnum.

  Lemma with_end ms : Forall (mok alpha alnum) ms -> ms <> [] -> forall g, exists ms' T, Forall (mfit alpha alnum) ms' /\ ms' <> [] /\ ends g ms' T /\ mrows g ms' ++ T = mrows g ms ++ [end_piece] /\ map item_of ms' = map item_of ms /\ (T = [] \/ T = [end_piece]).
  Proof.
    induction 1 as [| m r M F IH]; intros N g; [contradiction|]. destruct r as [| m' r].
    - destruct m as [[gl bp] | f].
      + exists [MG (gl, bp ++ [end_piece])], []. split; [constructor; [apply fit_end; now apply row_fits | constructor]|]. split; [discriminate|]. split; [reflexivity|]. cbn [mrows mpieces fst snd]. split; [|split; [reflexivity | now left]]. unfold sepm. cbn [after app]. rewrite !app_nil_r. now rewrite <- !app_assoc.
      + exists [MF f], [end_piece]. split; [constructor; [exact M | constructor]|]. split; [discriminate|]. split; [reflexivity|]. split; [reflexivity|]. split; [reflexivity | now right].
    - destruct (IH ltac:(discriminate) (sepm m (m' :: r))) as (ms & T & Fm & Nm & En & Er & Ei & Et). exists (m :: ms), T. assert (Es : sepm m ms = sepm m (m' :: r)) by (destruct ms; [contradiction | reflexivity]).
      split; [constructor; [destruct m; [now apply row_fits | exact M] | exact Fm]|]. split; [discriminate|]. cbn [ends mrows map]. rewrite Es. split; [exact En|]. split; [|split; [now rewrite Ei | exact Et]]. cbn [mrows] in *. rewrite <- !app_assoc, Er. now rewrite <- !app_assoc.
  Qed.
  Lemma items_exist items : Forall (good_item alpha alnum) items -> exists ms, Forall (mok alpha alnum) ms /\ map item_of ms = items.
  Proof.
    induction 1 as [| i items G _ (ms & F & E)]; [exists []; split; [constructor | reflexivity]|]. destruct i as [g | f].
    - destruct (rows_exist alpha alnum [g] (Forall_cons (P := good_global alpha alnum) g G (Forall_nil _))) as (l & El & Fl). destruct l as [| x [| y l]]; try discriminate. injection El as El. exists (MG x :: ms). split; [constructor; [now apply Forall_inv in Fl | exact F]|]. cbn [map item_of]. now rewrite El, E.
    - destruct (pfun_exists alpha alnum f G) as (p & Fp & Ep). exists (MF p :: ms). split; [now constructor|]. cbn [map item_of]. now rewrite Ep, E.
  Qed.

  Theorem module_round items : Forall (good_item alpha alnum) items -> (Z.of_nat (length (encode (ll_print items))) < 2 ^ 32)%Z -> ll_build alpha alnum (encode (ll_print items)) = Some (Some items, []).
  Proof.
    intros Fi L. destruct (items_exist items Fi) as (ms & Fm & Em). destruct ms as [| m0 r0]; [cbn in Em; subst items; reflexivity|]. set (ms := m0 :: r0) in *.
    pose proof (m_text alpha alnum ms Fm [] ltac:(discriminate)) as Tx. change (text_of_pieces []) with (@nil Z) in Tx. cbn [app] in Tx. rewrite Em in Tx. set (cs := ll_print items) in *.
    assert (Sc : Forall is_scalar cs) by (rewrite <- Tx; apply (m_sc alpha alnum ms Fm []); constructor). pose proof (m_whole alpha alnum Tb ms Fm [] ltac:(constructor)) as C. unfold whole in C. rewrite Tx in C.
    destruct (with_end ms Fm ltac:(discriminate) []) as (ms' & T & Fit & Nn & En & Er & Ei & Et). assert (Tx' : cs = text_of_pieces (mrows [] ms')).
    { assert (H : text_of_pieces (mrows [] ms' ++ T) = text_of_pieces (mrows [] ms ++ [end_piece])) by now rewrite Er. rewrite !pieces_app, Tx in H. change (text_of_pieces [end_piece]) with (@nil Z) in H. rewrite app_nil_r in H. destruct Et as [-> | ->]; [change (text_of_pieces []) with (@nil Z) in H | change (text_of_pieces [end_piece]) with (@nil Z) in H]; now rewrite app_nil_r in H. }
    unfold ll_build, ll_parse. rewrite (ll_lex_cut alpha alnum (flat_source (encode cs)) (encode cs) (flat_serves (encode cs) (ex_intro _ cs (conj Sc eq_refl))) (tables_letters alpha alnum Tb) cs _ (all_reads cs Sc) C).
    assert (Ek : spans 0 (mrows [] ms) ++ [Token LvError (length (encode cs)) (length (encode cs))] = spans 0 (mrows [] ms' ++ T)).
    { rewrite Er, spans_app, Tx. cbn [spans end_piece app encode length]. now rewrite !Nat.add_0_r. }
    pose proof (spans_fit cs (mrows [] ms) (length (encode cs)) LvError Tx L) as Hfit. rewrite Ek in Hfit |- *. set (toks := spans 0 (mrows [] ms' ++ T)) in *.
    destruct (sees_new ll_ignored toks Hfit (length (encode cs)) []) as [V0 E0]. set (s0 := ps_new ll_ignored toks (length (encode cs)) []) in *.
    assert (N0 : no_trivia ll_ignored toks = toks /\ trivia ll_ignored toks = []). { unfold toks. destruct ms' as [| [[g bp] | f] r]; [contradiction | |]; now split. }
    destruct N0 as [N0 N1]. rewrite N0, N1 in V0. cbn [map] in V0.
    assert (Lf : S (length ms') < S (length toks)).
    { unfold toks. assert (H : forall l g off, Forall (mfit alpha alnum) l -> 2 * length l <= length (spans off (mrows g l ++ T))).
      { clear. induction l as [| m r IH]; intros g off F; [cbn; lia|]. cbn [mrows length]. rewrite <- !app_assoc. rewrite spans_app, app_length, spans_app, app_length. specialize (IH (sepm m r) (off + length (encode (text_of_pieces g)) + length (encode (text_of_pieces (mpieces m)))) (Forall_inv_tail F)).
        assert (H2 : 2 <= length (spans (off + length (encode (text_of_pieces g))) (mpieces m))) by (destruct m as [[gl bp] | f]; [unfold mpieces, front | unfold mpieces, ffront, bl]; cbn [spans app length]; lia). lia. }
      specialize (H ms' [] 0 Fit). destruct ms'; [contradiction|]. cbn [length] in *. lia. }
    destruct (all_run alpha alnum Tb cs Sc toks Hfit ms' Fit [] [] s0 [] (S (length toks)) T) as (s1 & E1 & V1 & Er1); [constructor | exact En | exact Tx' | exact V0 | exact Lf|].
    unfold ll_root. fold s0. rewrite E1. cbn [app] in V1. destruct (checkpoint_at toks s0 _ _ V0) as (i & Ec). rewrite Ec. destruct (sees_finish ll_ignored toks Hfit s1 [] [] (mgreens [] ms') i LvRoot V1) as (m & s2 & E2 & V2 & Er2).
    rewrite E2. cbn [option_map fst snd]. rewrite Er2, Er1, E0. unfold ll_build_root. cbn [ll_children gnode]. assert (Tq : cs = [] ++ text_of_pieces (mrows [] ms') ++ []) by (cbn [app]; now rewrite app_nil_r). pose proof (m_builds alpha alnum Tb cs Sc ms' Fit [] [] [] Tq) as Bd. cbn [encode flat_map length] in Bd. rewrite Bd, Ei, Em. reflexivity.
  Qed.
End Round.
