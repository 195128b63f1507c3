(** The parser and the builder of regular expressions. *)
From Verif Require Import Base Utf8 Utf8Facts RopeModel RopeProofs CursorModel LexModel TreeModel TreeSpec TreeProofs ParserModel ParserSpec ParserProofs.
From Verif Require Import JsonLangSpec LangModel LangSpec LangParseProofs RegexModel RegexSpec RegexLexProofs.

(** ** The states *)
Lemma no_skip n s : skip_trivia_loop rx_ign n s = s.
Proof. destruct n; [reflexivity|]. cbn. now destruct (ps_current s). Qed.
Lemma advance_eq s : ps_advance rx_ign s = set_index s (S (ps_index s)).
Proof. unfold ps_advance, skip_trivia. apply no_skip. Qed.
Lemma bump_eq s : bump rx_ign s = match ps_current s with Some t => set_index (push_leaf s t) (S (ps_index s)) | None => s end.
Proof. unfold bump. destruct (ps_current s); [|reflexivity]. now rewrite advance_eq. Qed.
Lemma advance_loop_sink stop : forall n s, ps_sink (advance_loop rx_ign stop n s) = ps_sink s.
Proof. induction n as [| n IH]; intros s; [reflexivity|]. cbn [advance_loop]. destruct (_ && _); [|reflexivity]. now rewrite IH, advance_eq. Qed.
Definition leaf_of (t : token) : item := (None, GLeaf (tk_kind t) (as_u32 (tk_len t)) None).
Lemma bump_sink s : exists x, ps_sink (bump rx_ign s) = ps_sink s ++ x /\ match ps_current s with Some t => x = [leaf_of t] | None => x = [] end.
Proof. rewrite bump_eq. destruct (ps_current s) as [t|]; [now exists [leaf_of t] | exists []; split; [now rewrite app_nil_r | reflexivity]]. Qed.
Lemma expect_sink k s : exists x, ps_sink (snd (expect rx_ign k s)) = ps_sink s ++ x.
Proof.
  unfold expect, eat. destruct (at_kind s k); cbn [snd].
  - destruct (bump_sink s) as (x & E & _). now exists x.
  - exists []. now rewrite app_nil_r.
Qed.
Lemma finish_eq s cp kind it s' : finish_at s cp kind = Some (it, s') -> exists n, it = (Some (ps_next s), GNode kind n (map snd (skipn (snd cp) (ps_sink s)))) /\
  ps_sink s' = firstn (snd cp) (ps_sink s) ++ [it] /\ ps_index s' = ps_index s /\ ps_toks s' = ps_toks s.
Proof.
  unfold finish_at. destruct (_ <? _); [discriminate|]. unfold new_node. destruct (fits_u32 _); [|discriminate]. intros E. injection E as <- <-. eexists. repeat (split; [reflexivity|]). reflexivity.
Qed.
Lemma finish_tail s X Y i kind it s' : ps_sink s = X ++ Y -> finish_at s (i, length X) kind = Some (it, s') ->
  exists id n, it = (Some id, GNode kind n (map snd Y)) /\ ps_sink s' = X ++ [it].
Proof.
  intros E F. destruct (finish_eq _ _ _ _ _ F) as (n & I & S & _). cbn [snd] in *. rewrite E in *. exists (ps_next s), n. rewrite skipn_app, skipn_all, Nat.sub_diag in I. rewrite firstn_app, firstn_all, Nat.sub_diag, app_nil_r in S. now split.
Qed.
Lemma find_last_end id g : forall X i, find_last id (X ++ [(Some id, g)]) i = Some (i + length X).
Proof. induction X as [| [o x] X IH]; intros i; cbn; [now rewrite Nat.eqb_refl, Nat.add_0_r|]. rewrite IH. f_equal. lia. Qed.
Lemma before_last s id g X : ps_sink s = X ++ [(Some id, g)] -> checkpoint_before s id = (0, length X).
Proof. intros E. unfold checkpoint_before. now rewrite E, find_last_end. Qed.

(** ** What a parse leaves *)
Definition a_node (l : item) : Prop := exists id k n ch, l = (Some id, GNode k n ch) /\ (k = RPattern \/ k = RError).
Definition has_node (l : item) : Prop := exists id n a k m sub b, l = (Some id, GNode RPattern n (a ++ GNode k m sub :: b)) /\ (k = RPattern \/ k = RError).
Lemma has_a_node l : has_node l -> a_node l.
Proof. intros (id & n & a & k & m & sub & b & -> & _). exists id, RPattern, n. eexists. split; [reflexivity | now left]. Qed.

Definition prefix_kinds : list nat := [RHat; RDollar; RCharacter; RDot; RBackslash; RLParen; RLBrack].
Lemma prefix_step f min s r : rx_parse (S f) None min s = Some r ->
  (forall l' s', rx_parse f None 0 (bump rx_ign s) = Some (l', s') -> exists L, ps_sink s' = ps_sink (bump rx_ign s) ++ L) ->
  exists l s1 id k n x, rx_parse f (Some l) min s1 = Some r /\ l = (Some id, GNode k n (map snd x)) /\ ps_sink s1 = ps_sink s ++ [l] /\
    (exists y, x = match ps_current s with Some t => [leaf_of t] | None => [] end ++ y) /\
    (k = RError \/ k = RPattern /\ exists t, ps_current s = Some t /\ In (tk_kind t) prefix_kinds) /\
    (forall t, ps_current s = Some t -> tk_kind t = RCharacter -> ps_index s1 = S (ps_index s) /\ ps_toks s1 = ps_toks s).
Proof.
  intros E Hin. cbn [rx_parse] in E. cbv zeta in E. destruct (bump_sink s) as (b & Eb & Hb).
  assert (G : forall s0 y kind, ps_sink s0 = ps_sink (bump rx_ign s) ++ y -> match finish_at s0 (checkpoint s) kind with None => None | Some (l, s1) => rx_parse f (Some l) min s1 end = Some r ->
    (kind = RError \/ kind = RPattern /\ exists t, ps_current s = Some t /\ In (tk_kind t) prefix_kinds) -> (forall t, ps_current s = Some t -> tk_kind t = RCharacter -> s0 = bump rx_ign s) ->
    exists l s1 id k n x, rx_parse f (Some l) min s1 = Some r /\ l = (Some id, GNode k n (map snd x)) /\ ps_sink s1 = ps_sink s ++ [l] /\
      (exists y, x = match ps_current s with Some t => [leaf_of t] | None => [] end ++ y) /\ (k = RError \/ k = RPattern /\ exists t, ps_current s = Some t /\ In (tk_kind t) prefix_kinds) /\
    (forall t, ps_current s = Some t -> tk_kind t = RCharacter -> ps_index s1 = S (ps_index s) /\ ps_toks s1 = ps_toks s)).
  { intros s0 y kind E0 F K Hc. destruct (finish_at s0 (checkpoint s) kind) as [[l s1]|] eqn:Ef; [|discriminate]. rewrite Eb, <- app_assoc in E0. destruct (finish_tail s0 (ps_sink s) (b ++ y) (ps_index s) kind l s1 E0 Ef) as (id & n & -> & S1).
    exists (Some id, GNode kind n (map snd (b ++ y))), s1, id, kind, n, (b ++ y). split; [assumption|]. split; [reflexivity|]. split; [assumption|]. split; [exists y; destruct (ps_current s); now rewrite Hb|]. split; [exact K|]. intros t Ct Kt. specialize (Hc t Ct Kt). subst s0. destruct (finish_eq _ _ _ _ _ Ef) as (n0 & _ & _ & Ei & Eto). rewrite Ei, Eto, bump_eq, Ct. now split. }
  unfold peek_kind in E. destruct (ps_current s) as [t|] eqn:Ec; cbn [option_map] in E.
  - destruct (existsb (Nat.eqb (tk_kind t)) [RHat; RDollar; RCharacter; RDot]) eqn:E1.
    { apply (G (bump rx_ign s) [] RPattern); [now rewrite app_nil_r | assumption| |reflexivity]. right. split; [reflexivity|]. exists t. split; [reflexivity|]. apply existsb_exists in E1. destruct E1 as (k & I & Ek). apply Nat.eqb_eq in Ek. subst k. unfold prefix_kinds. cbn in *. tauto. }
    destruct (Nat.eqb_spec (tk_kind t) RBackslash) as [K |].
    { apply (G (ps_advance rx_ign (bump rx_ign s)) [] RPattern); [now rewrite advance_eq, app_nil_r | assumption| |intros t' X Kt; injection X as <-; rewrite Kt in K; discriminate]. right. split; [reflexivity|]. exists t. split; [reflexivity|]. rewrite K. cbn. tauto. }
    destruct (Nat.eqb_spec (tk_kind t) RLParen) as [K |].
    { destruct (rx_parse f None 0 (bump rx_ign s)) as [[l2 s2]|] eqn:Ei; [|discriminate]. destruct (Hin _ _ eq_refl) as (L & EL). destruct (expect_sink RRParen s2) as (z & Ez).
      apply (G (snd (expect rx_ign RRParen s2)) (L ++ z) RPattern); [now rewrite Ez, EL, app_assoc | assumption| |intros t' X Kt; injection X as <-; rewrite Kt in K; discriminate]. right. split; [reflexivity|]. exists t. split; [reflexivity|]. rewrite K. cbn. tauto. }
    destruct (Nat.eqb_spec (tk_kind t) RLBrack) as [K |].
    { destruct (expect_sink RRBrack (advance_until rx_ign RRBrack (bump rx_ign s))) as (z & Ez). eapply (G _ z RPattern); [unfold advance_until in Ez at 2; rewrite advance_loop_sink in Ez; exact Ez | exact E| |intros t' X Kt; injection X as <-; rewrite Kt in K; discriminate]. right. split; [reflexivity|]. exists t. split; [reflexivity|]. rewrite K. cbn. tauto. }
    apply (G (bump rx_ign s) [] RError); [now rewrite app_nil_r | assumption | now left | reflexivity].
  - apply (G (bump rx_ign s) [] RError); [now rewrite app_nil_r | assumption | now left | reflexivity].
Qed.

Lemma parse_shape : forall f left min s l' s', rx_parse f left min s = Some (l', s') ->
  match left with
  | None => exists L, ps_sink s' = ps_sink s ++ L ++ [l']
  | Some l => forall X, a_node l -> ps_sink s = X ++ [l] -> (exists L, ps_sink s' = X ++ L ++ [l']) /\ (l' = l /\ s' = s /\ rx_infix min s = RxStop \/ has_node l')
  end.
Proof.
  induction f as [| f IH]; intros left min s l' s' E; [discriminate|]. destruct left as [l|].
  - intros X Nl Sl. cbn [rx_parse] in E. cbv zeta in E. destruct Nl as (id & k & n & ch & -> & Hk). destruct (rx_infix min s) eqn:Ei.
    + injection E as <- <-. split; [exists []; exact Sl | left; now split].
    + cbn [fst] in E. destruct (rx_parse f None 2 _) as [[l2 s2]|] eqn:E2; [|discriminate]. destruct (finish_at s2 _ RPattern) as [[l3 s3]|] eqn:E3; [|discriminate]. rewrite (before_last s id _ X Sl) in E3.
      apply IH in E2. destruct E2 as (L & E2). destruct (expect_sink RPipe s) as (z & Ez). rewrite Ez, Sl, <- !app_assoc in E2. destruct (finish_tail s2 X _ 0 RPattern l3 s3 E2 E3) as (id3 & n3 & -> & S3).
      assert (H3 : has_node (Some id3, GNode RPattern n3 (map snd ([(Some id, GNode k n ch)] ++ z ++ L ++ [l2])))). { exists id3, n3, [], k, n, ch, (map snd (z ++ L ++ [l2])). split; [reflexivity | assumption]. }
      destruct (IH _ _ _ _ _ E X (has_a_node _ H3) S3) as [H4 H5]. split; [assumption|]. right. destruct H5 as [[-> _] | H5]; assumption.
    + destruct (finish_at _ _ RPattern) as [[l3 s3]|] eqn:E3; [|discriminate]. set (s1 := set_sink s (ps_sink s ++ [(Some id, GNode k n ch)])) in *. destruct (bump_sink s1) as (z & Ez & _). change (ps_sink s1) with (ps_sink s ++ [(Some id, GNode k n ch)]) in Ez. rewrite <- app_assoc in Ez.
      destruct (finish_tail _ (ps_sink s) _ (ps_index s) RPattern l3 s3 Ez E3) as (id3 & n3 & -> & S3).
      assert (H3 : has_node (Some id3, GNode RPattern n3 (map snd ([(Some id, GNode k n ch)] ++ z)))). { exists id3, n3, [], k, n, ch, (map snd z). split; [reflexivity | assumption]. }
      destruct (IH _ _ _ _ _ E (ps_sink s) (has_a_node _ H3) S3) as [(L & H4) H5]. split.
      * exists ((Some id, GNode k n ch) :: L). rewrite H4, Sl, <- app_assoc. reflexivity.
      * right. destruct H5 as [[-> _] | H5]; assumption.
  - apply prefix_step in E; [|intros l2 s2 E2; apply IH in E2; destruct E2 as (L & E2); now exists (L ++ [l2])]. destruct E as (l & s1 & id & k & n & x & E & -> & S1 & _ & K & _).
    assert (Nl : a_node (Some id, GNode k n (map snd x))). { exists id, k, n, (map snd x). split; [reflexivity|]. destruct K as [-> | [-> _]]; auto. }
    destruct (IH _ _ _ _ _ E (ps_sink s) Nl S1) as [H _]. exact H.
Qed.

(** ** The builder *)
Definition rejected (g : green) : Prop :=
  (exists n ch, g = GNode RError n ch) \/ exists n ch, g = GNode RPattern n ch /\ forall text off acc v, build_pattern text ch off acc <> Some (Some v).
Lemma rejected_in text g L2 : rejected g -> forall L1 off acc v, build_patterns text (L1 ++ g :: L2) off acc <> Some (Some v).
Proof.
  intros R. induction L1 as [| x L1 IH]; intros off acc v.
  - cbn [app]. destruct R as [(n & ch & ->) | (n & ch & -> & R)]; cbn [build_patterns]; [discriminate|]. change (RPattern =? RPattern) with true. cbv iota. specialize (R text off []). destruct (build_pattern text ch off []) as [[es|]|]; [now elim (R es) | discriminate | discriminate].
  - cbn [app build_patterns]. destruct x as [k n m | k n sub].
    + destruct (existsb _ _); [apply IH | discriminate].
    + destruct (k =? RPattern); [|discriminate]. destruct (build_pattern text sub off []) as [[es|]|]; [apply IH | discriminate | discriminate].
Qed.
Lemma node_rejects text k m sub b : k = RPattern \/ k = RError -> forall a off acc v, build_pattern text (a ++ GNode k m sub :: b) off acc <> Some (Some v).
Proof.
  intros K. induction a as [| x a IH]; intros off acc v; cbn [app build_pattern].
  - destruct K as [-> | ->]; discriminate.
  - destruct x as [k' n m' | k' n sub'].
    + destruct (existsb _ _); [apply IH|]. destruct (k' =? RCharacter); [apply IH | discriminate].
    + destruct (build_element text k' n sub' off) as [[e|]|]; [apply IH | discriminate | discriminate].
Qed.
Lemma has_node_rejected l : has_node l -> rejected (snd l).
Proof. intros (id & n & a & k & m & sub & b & -> & K). right. eexists _, _. split; [reflexivity|]. intros text off acc v. now apply node_rejects. Qed.
Lemma leaf_rejects k w m ch n : In k prefix_kinds -> k <> RCharacter -> rejected (GNode RPattern n (GLeaf k w m :: ch)).
Proof. intros I N. right. eexists _, _. split; [reflexivity|]. intros text off acc v. cbn in I. repeat (destruct I as [<- | I]; [try contradiction; discriminate|]). destruct I. Qed.

Definition infix_kinds : list nat := [RPipe; RQuestion; RStar; RPlus].
Lemma infix_stop s t : ps_current s = Some t -> ~ In (tk_kind t) infix_kinds -> rx_infix 0 s = RxStop.
Proof.
  intros C N. unfold rx_infix, peek_kind. rewrite C. cbn [option_map]. destruct (Nat.eqb_spec (tk_kind t) RPipe) as [K | _]; [elim N; rewrite K; now left|].
  destruct (existsb _ _) eqn:E; [|reflexivity]. apply existsb_exists in E. destruct E as (k & I & Ek). apply Nat.eqb_eq in Ek. subst k. elim N. right. exact I.
Qed.
Lemma infix_go s t : ps_current s = Some t -> In (tk_kind t) infix_kinds -> rx_infix 0 s <> RxStop.
Proof. intros C I. unfold rx_infix, peek_kind. rewrite C. cbn [option_map]. cbn in I. repeat (destruct I as [<- | I]; [discriminate|]). destruct I. Qed.

Lemma new_state toks n : ps_new rx_ign toks n [] = PState toks 0 [] 0 [] n None.
Proof. unfold ps_new, skip_trivia. apply no_skip. Qed.

(** A character with nothing to follow it as an operator *)
Lemma build_char text t t1 rest : rx_lex text = Some (t :: t1 :: rest) -> tk_kind t = RCharacter -> tk_len t <= 4 -> ~ In (tk_kind t1) infix_kinds ->
  rx_build text = Some (Some (one_literal (flat_text_in text 0 (tk_len t)) (tk_len t)), []).
Proof.
  intros E K L N. unfold rx_build, rx_tree. rewrite E, new_state. set (toks := t :: t1 :: rest) in *. cbv zeta.
  assert (A : as_u32 (tk_len t) = tk_len t) by (apply as_u32_id; lia).
  assert (Nn : forall n, n <= 4 -> fits_u32 n = true) by (intros n Hn; unfold fits_u32; apply N.ltb_lt; lia).
  assert (P : forall f, rx_parse (S (S f)) None 0 (PState toks 0 [] 0 [] (length text) None) =
    Some ((Some 0, GNode RPattern (tk_len t) [GLeaf RCharacter (tk_len t) None]), PState toks 1 [(Some 0, GNode RPattern (tk_len t) [GLeaf RCharacter (tk_len t) None])] 1 [] (length text) None)).
  { intros f. remember (S f) as f1 eqn:Ef. cbn [rx_parse]. cbv zeta. change (peek_kind (PState toks 0 [] 0 [] (length text) None)) with (Some (tk_kind t)). cbv iota. rewrite K. change (existsb (Nat.eqb RCharacter) [RHat; RDollar; RCharacter; RDot]) with true. cbv iota.
    rewrite bump_eq. change (ps_current (PState toks 0 [] 0 [] (length text) None)) with (Some t). cbv iota. cbn [ps_index]. unfold push_leaf. cbn [ps_sink app set_sink set_index]. rewrite K, A. unfold checkpoint. cbn [ps_index ps_sink length].
    unfold finish_at. cbn [ps_sink snd set_index set_sink length Nat.ltb Nat.leb skipn firstn map app ps_toks ps_index ps_next ps_errs ps_srclen ps_inc]. unfold new_node. cbn [sum_len glen]. rewrite Nat.add_0_r, (Nn _ L). subst f1. cbn [rx_parse]. cbv zeta.
    assert (rx_infix 0 (PState toks 1 [(Some 0, GNode RPattern (tk_len t) [GLeaf RCharacter (tk_len t) None])] 1 [] (length text) None) = RxStop) as ->; [|reflexivity]. now apply (infix_stop _ t1). }
  replace (3 * length toks + 3) with (S (S (3 * length toks + 1))) by lia. rewrite P. unfold finish_at, checkpoint. cbn [ps_sink snd length Nat.ltb Nat.leb skipn firstn map app ps_errs]. unfold new_node. cbn [sum_len glen]. rewrite Nat.add_0_r, (Nn _ L). reflexivity.
Qed.

(** … and everything else *)
Lemma build_reject text t t1 rest v : rx_lex text = Some (t :: t1 :: rest) -> tk_kind t <> RCharacter \/ In (tk_kind t1) infix_kinds -> forall errs, rx_build text <> Some (Some v, errs).
Proof.
  intros E C errs B. unfold rx_build in B. destruct (rx_tree text) as [[root es]|] eqn:Et; [|discriminate]. unfold rx_tree in Et. rewrite E, new_state in Et. set (toks := t :: t1 :: rest) in *. cbv zeta in Et. set (s0 := PState toks 0 [] 0 [] (length text) None) in *.
  destruct (rx_parse (3 * length toks + 3) None 0 s0) as [[l' s']|] eqn:Ep; [|discriminate]. destruct (finish_at s' (checkpoint s0) RPattern) as [[rt s2]|] eqn:Ef; [|discriminate]. injection Et as <- <-.
  assert (Es : ps_sink s' = [] ++ ps_sink s') by reflexivity. destruct (finish_tail s' [] (ps_sink s') 0 RPattern rt s2 Es Ef) as (id2 & n2 & -> & _). cbn [snd build_root] in B.
  assert (R : exists L1 g L2, map snd (ps_sink s') = L1 ++ g :: L2 /\ rejected g); [|destruct R as (L1 & g & L2 & EL & R); rewrite EL in B; pose proof (rejected_in text g L2 R L1 0 []) as Rj; destruct (build_patterns text (L1 ++ g :: L2) 0 []) as [[w|]|]; [now elim (Rj w) | discriminate | discriminate]].
  replace (3 * length toks + 3) with (S (3 * length toks + 2)) in Ep by lia. apply prefix_step in Ep; [|intros l2 s3 E2; apply parse_shape in E2; destruct E2 as (L & E2); now exists (L ++ [l2])].
  destruct Ep as (l & s1 & id & k & n & x & Ep & -> & S1 & (y & Ex) & K & Hc). change (ps_current s0) with (Some t) in *. change (ps_sink s0) with (@nil item) in S1. cbn [app] in S1.
  assert (Nl : a_node (Some id, GNode k n (map snd x))). { exists id, k, n, (map snd x). split; [reflexivity|]. destruct K as [-> | [-> _]]; auto. }
  destruct (parse_shape _ _ _ _ _ _ Ep [] Nl S1) as [(L & EL) [(-> & -> & St) | H]].
  - (* nothing follows *)
    rewrite S1. exists [], (GNode k n (map snd x)), []. split; [reflexivity|]. destruct K as [-> | [-> (t' & Et & Ik)]]; [left; now eexists _, _|]. injection Et as <-.
    destruct (Nat.eq_dec (tk_kind t) RCharacter) as [Kc | Nc]; [|rewrite Ex; cbn [app map leaf_of snd]; now apply leaf_rejects]. exfalso. destruct C as [C | C]; [contradiction|].
    destruct (Hc t eq_refl Kc) as [Hi Ht]. apply (infix_go s1 t1); [|assumption | assumption]. unfold ps_current. now rewrite Hi, Ht.
  - cbn [app] in EL. rewrite EL, map_app. exists (map snd L), (snd l'), []. split; [reflexivity | now apply has_node_rejected].
Qed.

(** ** The first token *)
Definition ops : list Z := [124; 42; 43; 63]%Z.
Lemma in_ops d : In d (lit "|*+?") <-> (d = 124 \/ d = 42 \/ d = 43 \/ d = 63)%Z.
Proof. change (lit "|*+?") with ops. cbn. intuition congruence. Qed.
Lemma in_gap c : gap c <-> (c = 44 \/ c = 125)%Z.
Proof. apply in_gaps. Qed.
Lemma item_head ps b r : rx_item ps b r -> (exists c, gap c /\ ps = [(None, [c])] /\ b = false) \/
  exists k c s ps', ps = (Some k, c :: s) :: ps' /\ ~ gap c /\ (k = RCharacter -> ps' = [] /\ b = false /\ s = [] /\ ordinary c) /\ (ordinary c -> k = RCharacter) /\ (In k infix_kinds <-> In c (lit "|*+?")).
Proof.
  assert (G : forall k c s ps' b, ~ gap c -> k <> RCharacter -> ~ ordinary c -> ~ In k infix_kinds -> ~ In c (lit "|*+?") -> exists k0 c0 s0 ps0, (Some k, c :: s) :: ps' = (Some k0, c0 :: s0) :: ps0 /\ ~ gap c0 /\ (k0 = RCharacter -> ps0 = [] /\ b = false /\ s0 = [] /\ ordinary c0) /\ (ordinary c0 -> k0 = RCharacter) /\ (In k0 infix_kinds <-> In c0 (lit "|*+?"))).
  { intros k c s ps' b0 N1 N2 N3 N4 N5. exists k, c, s, ps'. split; [reflexivity|]. split; [assumption|]. split; [intros; contradiction|]. split; [intros; contradiction|]. tauto. }
  assert (Ni : forall k, ~ In k [3; 4; 5; 6] -> ~ In k infix_kinds) by (intros k H; exact H).
  assert (Oo : forall c, In c others -> ~ ordinary c) by (intros c I (_ & H & _); contradiction).
  assert (Go : forall o x b, opening o -> exists k c s ps', o ++ x = (Some k, c :: s) :: ps' /\ ~ gap c /\ (k = RCharacter -> ps' = [] /\ b = false /\ s = [] /\ ordinary c) /\ (ordinary c -> k = RCharacter) /\ (In k infix_kinds <-> In c (lit "|*+?"))).
  { intros o x b0 [|]; cbn [app]; (apply (G RLBrack 91%Z []); [rewrite in_gap; lia | discriminate | apply Oo; rewrite others_spec; lia | cbn; intuition discriminate | rewrite in_ops; lia]). }
  intros H. destruct H as [s r N F Hr | s r F Hr | o ps r Ho Hh M | o ps Ho Hh M | o ps Ho Hh M | ps r F | ps r F Hr | c r | | s k r I | c r O | c r I]; try (right; now apply Go).
  - right. destruct s as [| c s]; [contradiction|]. inversion F as [| c0 s0 Hc Fs]; subst. assert (W : forall x, In x [44; 125; 124; 42; 43; 63]%Z -> c <> x). { intros x I ->. cbn in I. unfold space in Hc. intuition (subst; discriminate). }
    apply (G RWhitespace c s []); [rewrite in_gap | discriminate | intros (Hs & _); contradiction | cbn; intuition discriminate | rewrite in_ops]; intros X; repeat (destruct X as [X | X]); (eapply W; [|exact X]; cbn; tauto).
  - right. apply (G RComment 35%Z s []); [rewrite in_gap; lia | discriminate | apply Oo; rewrite others_spec; lia | cbn; intuition discriminate | rewrite in_ops; lia].
  - right. apply (G RLBrace 123%Z []); [rewrite in_gap; lia | discriminate | apply Oo; rewrite others_spec; lia | cbn; intuition discriminate | rewrite in_ops; lia].
  - right. apply (G RLBrace 123%Z []); [rewrite in_gap; lia | discriminate | apply Oo; rewrite others_spec; lia | cbn; intuition discriminate | rewrite in_ops; lia].
  - right. apply (G RBackslash 92%Z []); [rewrite in_gap; lia | discriminate | apply Oo; rewrite others_spec; lia | cbn; intuition discriminate | rewrite in_ops; lia].
  - right. apply (G RBackslash 92%Z [] []); [rewrite in_gap; lia | discriminate | apply Oo; rewrite others_spec; lia | cbn; intuition discriminate | rewrite in_ops; lia].
  - right. destruct (marks_single _ _ I) as (c & ->). exists k, c, [], []. split; [reflexivity|]. assert (No : ~ ordinary c) by (intros (_ & _ & H); now apply (H k)).
    assert (Q : ~ (c = 44 \/ c = 125)%Z /\ k <> RCharacter /\ (In k infix_kinds <-> (c = 124 \/ c = 42 \/ c = 43 \/ c = 63)%Z)).
    { clear No. unfold marks in I. repeat (destruct I as [I | I]; [apply pair_equal_spec in I; destruct I as [I1 I2]; change (lit "*") with [42%Z] in I1 || idtac; injection I1 as <-; subst k; split; [cbn; lia|]; split; [discriminate|]; cbn; split; intros X; (lia || tauto || (repeat (destruct X as [X | X]; [discriminate X|]); destruct X))|]). destruct I. }
    destruct Q as (Q1 & Q2 & Q3). split; [now rewrite in_gap|]. split; [intros; contradiction|]. split; [intros; contradiction|]. rewrite in_ops. exact Q3.
  - right. exists RCharacter, c, [], []. split; [reflexivity|]. pose proof O as (Hw & Hot & Hm). split; [rewrite in_gap; rewrite others_spec in Hot; lia|]. split; [intros _; repeat (split; [reflexivity|]); assumption|]. split; [reflexivity|]. split; [cbn; intuition discriminate|]. rewrite in_ops. intros X. exfalso.
    repeat (destruct X as [X | X]); subst c; [apply (Hm RPipe) | apply (Hm RStar) | apply (Hm RPlus) | apply (Hm RQuestion)]; cbn; tauto.
  - left. exists c. now repeat split.
Qed.

Lemma items_exist : forall n cs, length cs <= n -> exists its, rx_items cs its.
Proof.
  induction n as [| n IH]; intros [| c r] L; try (cbn in L; lia); try (exists []; constructor).
  pose proof (item1_spec (c :: r) ltac:(discriminate)) as I. destruct (item1 (c :: r)) as [[ps b] t]. destruct I as [E I]. pose proof (proj2 (item1_complete _ _ _ I)) as N. destruct (IH t) as (its & R).
  { apply (f_equal (@length Z)) in E. rewrite app_length in E. destruct (text_of_pieces ps); [contradiction|]. cbn [length] in *. lia. }
  exists ((ps, b) :: its). rewrite <- E. now apply (RxItem ps b).
Qed.

Lemma items_head cs its : rx_items cs its -> exists g, Forall gap g /\
  ((cs = g /\ forall off, item_tokens off its = []) \/
   exists k c s ps b r its', cs = g ++ (c :: s) ++ text_of_pieces ps ++ r /\ rx_item ((Some k, c :: s) :: ps) b r /\ rx_items r its' /\ forall off, item_tokens off its = item_tokens (off + length (encode g)) (((Some k, c :: s) :: ps, b) :: its')).
Proof.
  induction 1 as [| ps b r its I R IH].
  - exists []. split; [constructor|]. left. now split.
  - destruct (item_head _ _ _ I) as [(c & Gc & -> & ->) | (k & c & s & ps' & -> & _)].
    + destruct IH as (g & Fg & H). exists (c :: g). split; [now constructor|]. assert (Eo : forall off, item_tokens off (([(None, [c])], false) :: its) = item_tokens (off + length (encode [c])) its) by reflexivity.
      destruct H as [[-> Ht] | (k & c' & s & ps & b & r' & its' & -> & I' & R' & Ht)].
      * left. split; [reflexivity|]. intros off. now rewrite Eo, Ht.
      * right. exists k, c', s, ps, b, r', its'. split; [reflexivity|]. split; [assumption|]. split; [assumption|]. intros off. rewrite Eo, Ht. f_equal. change (c :: g) with ([c] ++ g). rewrite encode_app, app_length. lia.
    + exists []. split; [constructor|]. right. exists k, c, s, ps', b, r, its. split; [cbn [app]; now rewrite app_assoc|]. split; [assumption|]. split; [assumption|]. intros off. cbn [encode length]. now rewrite Nat.add_0_r.
Qed.
Lemma gap_split g : forall g' x y c d, Forall gap g -> Forall gap g' -> ~ gap c -> ~ gap d -> g ++ c :: x = g' ++ d :: y -> g = g' /\ c = d /\ x = y.
Proof.
  induction g as [| a g IH]; intros [| a' g'] x y c d F F' N N' E; cbn [app] in E.
  - injection E as -> ->. now split.
  - injection E as -> _. inversion F'; contradiction.
  - injection E as <- _. inversion F; contradiction.
  - injection E as -> E. inversion F; inversion F'; subst. destruct (IH g' x y c d) as (-> & -> & ->); auto.
Qed.
Lemma gap_only g g' d y : Forall gap g -> ~ gap d -> g <> g' ++ d :: y.
Proof. intros F N ->. apply Forall_app in F. destruct F as [_ F]. inversion F; contradiction. Qed.

Lemma next_operator cs its off n : rx_items cs its -> exists t rest, item_tokens off its ++ [Token REof n n] = t :: rest /\ (In (tk_kind t) infix_kinds <-> operated cs).
Proof.
  intros R. destruct (items_head _ _ R) as (g & Fg & H). assert (Ng : forall d, In d (lit "|*+?") -> ~ gap d) by (intros d; rewrite in_ops, in_gap; lia).
  destruct H as [[-> Ht] | (k & c & s & ps & b & r' & its' & -> & I' & R' & Ht)]; rewrite Ht.
  - eexists _, _. split; [reflexivity|]. cbn [tk_kind]. split; [cbn; intuition discriminate|]. intros (g' & d & r & E & _ & I). exfalso. revert E. apply gap_only; auto.
  - cbn [item_tokens spans app]. eexists _, _. split; [reflexivity|]. cbn [tk_kind]. destruct (item_head _ _ _ I') as [(? & _ & X & _) | (k0 & c0 & s0 & ps0 & X & Nc & _ & _ & Hk)]; [discriminate|]. injection X as <- <- <- <-. rewrite Hk. split.
    + intros I. exists g, c, (s ++ text_of_pieces ps ++ r'). now repeat split.
    + intros (g' & d & r & E & Fg' & I). cbn [app] in E. destruct (gap_split g g' _ _ c d Fg Fg' Nc (Ng d I) E) as (_ & -> & _). assumption.
Qed.

Theorem value_exact cs v errs : Forall is_scalar cs -> (rx_build (encode cs) = Some (Some v, errs) <->
  exists g c r, cs = g ++ c :: r /\ Forall gap g /\ ordinary c /\ ~ operated r /\ v = one_literal (flat_text_in (encode cs) 0 (char_len c)) (char_len c) /\ errs = []).
Proof.
  intros F. destruct (rx_lex_items cs F) as (its & R & E). unfold rx_tokens in E. cbv zeta in E. set (n := length (encode cs)) in *. destruct (items_head _ _ R) as (g & Fg & H). destruct H as [[-> Ht] | (k & c & s & ps & b & r' & its' & Ec & I' & R' & Ht)]; rewrite Ht in E.
  - cbn [app] in E. split.
    + intros B. exfalso. unfold rx_build, rx_tree in B. rewrite E, new_state in B. cbv zeta in B. revert B. assert (T : forall f m, rx_parse (S (S f)) None 0 (PState [Token REof n n] 0 [] 0 [] m None) = Some ((Some 0, GNode RError 0 [GLeaf REof 0 None]), PState [Token REof n n] 1 [(Some 0, GNode RError 0 [GLeaf REof 0 None])] 1 [] m None)).
      { intros f m. remember (S f) as f1 eqn:Ef. cbn [rx_parse]. cbv zeta. change (peek_kind _) with (Some REof). cbv iota. change (existsb (Nat.eqb REof) [RHat; RDollar; RCharacter; RDot]) with false. change (REof =? RBackslash) with false. change (REof =? RLParen) with false. change (REof =? RLBrack) with false. cbv iota.
        rewrite bump_eq. change (ps_current (PState [Token REof n n] 0 [] 0 [] m None)) with (Some (Token REof n n)). cbv iota. unfold push_leaf, tk_len. cbn [tk_kind tk_end tk_start ps_sink app set_sink set_index ps_index]. rewrite Nat.sub_diag. subst f1. reflexivity. }
      change (3 * length [Token REof n n] + 3) with 6. rewrite T. discriminate.
    + intros (g' & c & r & X & _ & O & _). exfalso. revert X. apply gap_only; [assumption|]. destruct O as (_ & Ho & _). rewrite others_spec in Ho. rewrite in_gap. lia.
  - pose proof I' as J. apply item_head in J. destruct J as [(? & _ & X & _) | (k0 & c0 & s0 & ps0 & X & Nc & Hk & Hk' & _)]; [discriminate|]. injection X as <- <- <- <-.
    destruct (Nat.eq_dec k RCharacter) as [-> | Nk].
    + destruct (Hk eq_refl) as (-> & -> & -> & Oc). cbn [app text_of_pieces flat_map] in Ec. destruct (next_operator r' its' (0 + length (encode g) + length (encode [c])) n R') as (t & rest & Et & Hop).
      cbn [item_tokens spans app text_of_pieces flat_map snd] in E. cbn [app] in E. rewrite Et in E. set (t0 := Token _ _ _) in E. assert (Lt : tk_len t0 = char_len c). { unfold tk_len, t0. cbn [tk_end tk_start encode]. rewrite app_nil_r, encode_char_length. lia. }
      assert (L4 : tk_len t0 <= 4) by (rewrite Lt; unfold char_len; repeat destruct (_ <? _)%Z; lia). split.
      * intros B. destruct (in_dec Nat.eq_dec (tk_kind t) infix_kinds) as [Iop | Nop]; [now elim (build_reject _ _ _ _ v E (or_intror Iop) errs)|].
        rewrite (build_char _ _ _ _ E eq_refl L4 Nop) in B. injection B as <- <-. exists g, c, r'. rewrite Lt. split; [assumption|]. split; [assumption|]. split; [assumption|]. split; [now rewrite <- Hop|]. now split.
      * intros (g' & c' & r & X & Fg' & Oc' & Nop & -> & ->). assert (Nc' : ~ gap c') by (destruct Oc' as (_ & Ho & _); rewrite others_spec in Ho; rewrite in_gap; lia). rewrite Ec in X. destruct (gap_split g g' _ _ c c' Fg Fg' Nc Nc' X) as (-> & -> & ->).
        rewrite (build_char _ _ _ _ E eq_refl L4 ltac:(now rewrite Hop)), Lt. reflexivity.
    + split.
      * intros B. exfalso. cbn [item_tokens spans app] in E. assert (Q : exists t1 rest, spans (0 + length (encode g) + length (encode (c :: s))) ps ++ (if b then [Token RError (0 + length (encode g)) (0 + length (encode g) + length (encode (text_of_pieces ((Some k, c :: s) :: ps))))] else []) ++ item_tokens (0 + length (encode g) + length (encode (text_of_pieces ((Some k, c :: s) :: ps)))) its' ++ [Token REof n n] = t1 :: rest).
        { match goal with |- exists _ _, ?x = _ => assert (L : x <> []) by (intros X; apply (f_equal (@length token)) in X; rewrite !app_length in X; cbn [length] in X; lia); destruct x as [| t1 rest]; [contradiction | now exists t1, rest] end. }
        destruct Q as (t1 & rest & Q). rewrite <- !app_assoc, Q in E. exact (build_reject _ _ _ _ v E (or_introl Nk) errs B).
      * intros (g' & c' & r & X & Fg' & Oc' & _). exfalso. assert (Nc' : ~ gap c') by (destruct Oc' as (_ & Ho & _); rewrite others_spec in Ho; rewrite in_gap; lia). rewrite Ec in X. cbn [app] in X. destruct (gap_split g g' _ _ c c' Fg Fg' Nc Nc' X) as (_ & -> & _). auto.
Qed.
