(** Proofs about grammars: a run without errors is a derivation, a derivation determines the run, and a node of an old
    tree is a derivation that fits into the new text. *)
From Verif Require Import Base Utf8 EditModel EditSpec EditProofs LexModel TreeModel TreeSpec TreeProofs ParserModel ParserSpec ParserProofs GramModel GramSpec.

Lemma interp_bind ign f c : forall s, interp ign (bind c f) s = match interp ign c s with None => None | Some (ok, s') => interp ign (f ok) s' end.
Proof.
  induction c as [ok|o k IH|b _ k IH|kind k IH]; intros s; cbn [bind interp].
  - reflexivity.
  - destruct (exec ign o s) as [[r s']|]; [apply IH|reflexivity].
  - destruct (interp ign b s) as [[[] s']|]; [apply IH|apply IH|reflexivity].
  - destruct (try_reuse kind s) as [[r s']|]; [apply IH|reflexivity].
Qed.

Lemma interp_stuck ign s : interp ign stuck s = None.
Proof. unfold stuck, peeking. cbn [interp exec]. unfold finish_at. cbn [snd]. destruct (Nat.ltb_spec (length (ps_sink s)) (S (length (ps_sink s)))); [reflexivity | lia]. Qed.

Definition hk (ts : list (nat * nat)) : option nat := option_map fst (hd_error ts).
Definition leaf (t : nat * nat) : green := GLeaf (fst t) (snd t) None.
Definition rem (s : pstate) : list (nat * nat) := map tok_yield (to_come s).

Lemma yield_leaves l : flat_map yield (map leaf l) = l.
Proof. induction l as [|[k n] l IH]; [reflexivity|]. cbn. now rewrite IH. Qed.
Lemma peek_hk s : peek_kind s = hk (rem s).
Proof.
  unfold peek_kind, ps_current, hk, rem, to_come. destruct (nth_error (ps_toks s) (ps_index s)) as [t|] eqn:E.
  - now rewrite (skipn_nth _ _ _ E).
  - apply nth_error_None in E. now rewrite skipn_all2.
Qed.
Lemma hk_app a b c : (a = [] -> hk b = hk c) -> hk (a ++ b) = hk (a ++ c).
Proof. destruct a; [intros H; now apply H | reflexivity]. Qed.

Section Gram.
  Variable ign : nat -> bool.
  Variable body : nat -> gram.

  Definition still (ts : list (nat * nat)) : Prop := match ts with [] => True | (k, _) :: _ => ign k = false end.

  (** Derivations: what a grammar makes of a list of tokens. *)
  Inductive yields : gram -> list (nat * nat) -> list green -> list (nat * nat) -> Prop :=
  | YEmpty ts : yields GEmpty ts [] ts
  | YTok k n tr rest : ign k = false -> Forall (fun t => ign (fst t) = true) tr -> still rest ->
      yields (GTok k) ((k, n) :: tr ++ rest) (leaf (k, n) :: map leaf tr) rest
  | YSeq a b ts ca mid cb rest : yields a ts ca mid -> yields b mid cb rest -> yields (GSeq a b) ts (ca ++ cb) rest
  | YIf (test : option nat -> bool) a b ts ch rest : yields (if test (hk ts) then a else b) ts ch rest -> yields (GIf test a b) ts ch rest
  | YStop (test : option nat -> bool) a ts : test (hk ts) = false -> yields (GWhile test a) ts [] ts
  | YMore (test : option nat -> bool) a ts ca mid cb rest : test (hk ts) = true -> yields a ts ca mid -> yields (GWhile test a) mid cb rest ->
      yields (GWhile test a) ts (ca ++ cb) rest
  | YLax a ts ch rest : yields a ts ch rest -> yields (GLax a) ts ch rest
  | YRule k ts ch g rest : yields (body k) ts ch rest -> new_node k ch = Some g -> yields (GRule k) ts [g] rest.

  Lemma node_yield k ch g : new_node k ch = Some g -> yield g = flat_map yield ch.
  Proof. unfold new_node. destruct (fits_u32 (sum_len ch)); [|discriminate]. intros H. injection H as <-. reflexivity. Qed.

  Lemma yields_text g ts ch rest : yields g ts ch rest -> ts = flat_map yield ch ++ rest.
  Proof.
    induction 1 as [| k n tr rest Hk Ht Hr | a b ts ca mid cb rest Ha IHa Hb IHb | | | test a ts ca mid cb rest Ht Ha IHa Hb IHb | | k ts ch g rest H IH N]; try reflexivity; try assumption.
    - cbn [flat_map yield leaf fst snd app]. now rewrite yield_leaves.
    - rewrite flat_map_app, <- app_assoc, <- IHb. exact IHa.
    - rewrite flat_map_app, <- app_assoc, <- IHb. exact IHa.
    - cbn [flat_map]. rewrite (node_yield _ _ _ N), app_nil_r. exact IH.
  Qed.

  Lemma yields_still g ts ch rest : yields g ts ch rest -> still rest -> still ts.
  Proof. induction 1; intros S; auto. Qed.

  Lemma yields_built g ts ch rest : yields g ts ch rest -> Forall built ch.
  Proof.
    induction 1 as [| k n tr rest Hk Ht Hr | a b ts ca mid cb rest Ha IHa Hb IHb | | | test a ts ca mid cb rest Ht Ha IHa Hb IHb | | k ts ch g rest H IH N]; try (now constructor); try assumption.
    - constructor; [constructor|]. clear. induction tr; constructor; [constructor | assumption].
    - apply Forall_app. now split.
    - apply Forall_app. now split.
    - constructor; [|constructor]. econstructor; eassumption.
  Qed.

  Lemma yields_takes : (forall k, takes (body k) = true) -> forall g ts ch rest, yields g ts ch rest -> takes g = true -> flat_map yield ch <> [].
  Proof.
    intros T g ts ch rest H. induction H as [| k n tr rest Hk Ht Hr | a b ts ca mid cb rest Ha IHa Hb IHb | test a b ts ch rest H IH | | test a ts ca mid cb rest Ht Ha IHa Hb IHb | a ts ch rest H IH | k ts ch g rest H IH N]; cbn [takes]; intros E; try discriminate.
    - rewrite flat_map_app. intros Q. apply app_eq_nil in Q as [Q1 Q2]. apply orb_true_iff in E as [E|E]; [now apply IHa | now apply IHb].
    - apply andb_true_iff in E as [E1 E2]. apply IH. now destruct (test (hk ts)).
    - now apply IH.
    - cbn [flat_map]. rewrite (node_yield _ _ _ N), app_nil_r. apply IH. apply T.
  Qed.

  Lemma yields_eof eof : ign eof = false -> (forall k, mentions eof (body k) = false) -> forall g ts ch rest, yields g ts ch rest -> mentions eof g = false ->
    Forall (fun t => fst t <> eof) (flat_map yield ch).
  Proof.
    intros I T g ts ch rest H. induction H as [| k n tr rest Hk Ht Hr | a b ts ca mid cb rest Ha IHa Hb IHb | test a b ts ch rest H IH | | test a ts ca mid cb rest Ht Ha IHa Hb IHb | a ts ch rest H IH | k ts ch g rest H IH N]; cbn [mentions]; intros E; try (now constructor).
    - cbn [flat_map yield leaf fst snd app]. rewrite yield_leaves. constructor; [cbn; now apply Nat.eqb_neq|]. eapply Forall_impl; [|exact Ht]. intros [k1 n1] A B. cbn in A, B. congruence.
    - apply orb_false_iff in E as [E1 E2]. rewrite flat_map_app. apply Forall_app. split; [now apply IHa | now apply IHb].
    - apply orb_false_iff in E as [E1 E2]. apply IH. now destruct (test (hk ts)).
    - rewrite flat_map_app. apply Forall_app. split; [now apply IHa | now apply IHb].
    - now apply IH.
    - cbn [flat_map]. rewrite (node_yield _ _ _ N), app_nil_r. apply IH. apply T.
  Qed.

  (** What follows matters only to a grammar that needs it. *)
  Lemma yields_after : (forall k, takes (body k) = true) -> (forall k, needs (body k) = false) -> forall g ts ch rest, yields g ts ch rest ->
    forall rest', still rest' -> (needs g = true -> hk rest = hk rest') -> yields g (flat_map yield ch ++ rest') ch rest'.
  Proof.
    intros T D g ts ch rest H. induction H as [| k n tr rest Hk Ht Hr | a b ts ca mid cb rest Ha IHa Hb IHb | test a b ts ch rest H IH | test a ts St | test a ts ca mid cb rest Ht Ha IHa Hb IHb | a ts ch rest H IH | k ts ch g rest H IH N]; intros rest' S E; cbn [needs] in E.
    - constructor.
    - cbn [flat_map yield leaf fst snd app]. rewrite yield_leaves. now constructor.
    - rewrite flat_map_app, <- app_assoc.
      assert (B : yields b (flat_map yield cb ++ rest') cb rest') by (apply IHb; [exact S|]; intros Nb; apply E; rewrite Nb; destruct (takes b); [reflexivity | apply orb_true_r]).
      apply YSeq with (flat_map yield cb ++ rest'); [|exact B]. apply IHa; [now apply (yields_still _ _ _ _ B)|]. intros Na.
      rewrite (yields_text _ _ _ _ Hb). apply hk_app. intros Q. destruct (takes b) eqn:Tb; [exfalso; exact (yields_takes T _ _ _ _ Hb Tb Q)|]. apply E. now rewrite Na.
    - assert (Q : hk (flat_map yield ch ++ rest') = hk ts).
      { rewrite (yields_text _ _ _ _ H). apply hk_app. intros Q. symmetry. apply E.
        destruct (takes a && takes b) eqn:Tab; [|now rewrite !orb_true_r]. exfalso. apply andb_true_iff in Tab as [Ta Tb].
        apply (yields_takes T _ _ _ _ H); [now destruct (test (hk ts)) | exact Q]. }
      constructor. rewrite Q. apply IH; [exact S|]. intros Nb. apply E. destruct (test (hk ts)); rewrite Nb; [reflexivity | now rewrite orb_true_r].
    - cbn [flat_map app]. constructor. now rewrite <- E.
    - rewrite flat_map_app, <- app_assoc. specialize (E eq_refl).
      assert (B : yields (GWhile test a) (flat_map yield cb ++ rest') cb rest') by (apply IHb; [exact S|]; now intros _).
      apply YMore with (flat_map yield cb ++ rest'); [|apply IHa|exact B].
      + rewrite <- Ht. f_equal. rewrite (yields_text _ _ _ _ Ha), (yields_text _ _ _ _ Hb). rewrite !app_assoc. apply hk_app. now symmetry.
      + now apply (yields_still _ _ _ _ B).
      + intros _. rewrite (yields_text _ _ _ _ Hb). apply hk_app. now intros _.
    - constructor. now apply IH.
    - cbn [flat_map]. rewrite (node_yield _ _ _ N), app_nil_r. apply YRule with ch; [|exact N]. apply IH; [exact S|]. rewrite D. discriminate.
  Qed.

  (** Every node is a derivation of its own. *)
  Lemma yields_nodes g ts ch rest : yields g ts ch rest -> still rest -> forall off k n ch' o, In (GNode k n ch', o) (lay elements off ch) ->
    exists pre post, ts = pre ++ flat_map yield ch' ++ post /\ off + list_sum (map snd pre) = o /\
      yields (body k) (flat_map yield ch' ++ post) ch' post /\ still post.
  Proof.
    assert (W : forall l, list_sum (map width l) = list_sum (map snd (flat_map yield l))).
    { induction l as [|c l IH]; [reflexivity|]. cbn [map flat_map]. rewrite map_app, list_sum_app, list_sum_cons, yield_width, IH. reflexivity. }
    intros H. induction H as [| k0 n0 tr rest Hk Ht Hr | a b ts ca mid cb rest Ha IHa Hb IHb | test a b ts ch rest H IH | test a ts St | test a ts ca mid cb rest Ht Ha IHa Hb IHb | a ts ch rest H IH | k0 ts ch g rest H IH N]; intros S off k n ch' o I.
    - contradiction.
    - exfalso. change (leaf (k0, n0) :: map leaf tr) with (map leaf ((k0, n0) :: tr)) in I. revert off I. induction ((k0, n0) :: tr) as [|t l IHl]; intros off I; [exact I|]. cbn in I. destruct I as [I|I]; [discriminate | now apply IHl in I].
    - rewrite lay_app in I. apply in_app_iff in I as [I|I].
      + eapply IHa; [now apply (yields_still _ _ _ _ Hb) | exact I].
      + destruct (IHb S _ _ _ _ _ I) as (pre & post & E & O & Y & P). exists (flat_map yield ca ++ pre), post. split; [rewrite (yields_text _ _ _ _ Ha), E; now rewrite <- app_assoc|].
        split; [|now split]. rewrite map_app, list_sum_app, <- W. lia.
    - eapply IH; eassumption.
    - contradiction.
    - rewrite lay_app in I. apply in_app_iff in I as [I|I].
      + eapply IHa; [now apply (yields_still _ _ _ _ Hb) | exact I].
      + destruct (IHb S _ _ _ _ _ I) as (pre & post & E & O & Y & P). exists (flat_map yield ca ++ pre), post. split; [rewrite (yields_text _ _ _ _ Ha), E; now rewrite <- app_assoc|].
        split; [|now split]. rewrite map_app, list_sum_app, <- W. lia.
    - eapply IH; eassumption.
    - cbn [lay] in I. rewrite app_nil_r, elements_eq in I. destruct I as [I|I].
      + injection I as -> ->. unfold new_node in N. destruct (fits_u32 (sum_len ch)); [|discriminate]. injection N as -> _ ->.
        exists [], rest. rewrite <- (yields_text _ _ _ _ H). cbn. repeat split; [lia | exact H | exact S].
      + unfold new_node in N. destruct (fits_u32 (sum_len ch)); [|discriminate]. injection N as <-. eapply IH; eassumption.
  Qed.

  (** ** Runs *)
  Definition ready (s : pstate) : Prop := still (rem s) /\ ps_index s <= length (ps_toks s).
  Definition as_item (t : token) : option nat * green := (None, leaf (tok_yield t)).

  Lemma skip_run : forall n s, lengths_fit (ps_toks s) -> length (ps_toks s) - ps_index s <= n -> ps_index s <= length (ps_toks s) ->
    exists seg, to_come s = seg ++ to_come (skip_trivia_loop ign n s) /\ Forall (fun t => ign (tk_kind t) = true) seg /\
      ps_sink (skip_trivia_loop ign n s) = ps_sink s ++ map as_item seg /\ ready (skip_trivia_loop ign n s).
  Proof.
    induction n as [|n IH]; intros s F L B; cbn [skip_trivia_loop].
    - exists []. cbn. rewrite app_nil_r. split; [reflexivity|]. split; [constructor|]. split; [reflexivity|]. split; [|exact B]. unfold rem, to_come. rewrite skipn_all2 by lia. exact I.
    - destruct (ps_current s) as [t|] eqn:E.
      2:{ exists []. cbn. rewrite app_nil_r. split; [reflexivity|]. split; [constructor|]. split; [reflexivity|]. split; [|exact B]. unfold rem, to_come. unfold ps_current in E. apply nth_error_None in E. rewrite skipn_all2 by lia. exact I. }
      destruct (ign (tk_kind t)) eqn:G.
      + assert (Q : ps_index s < length (ps_toks s)) by (unfold ps_current in E; apply nth_error_Some; congruence).
        edestruct (IH (set_index (push_leaf s t) (S (ps_index (push_leaf s t))))) as (seg & A & C & D & R); [exact F | cbn; lia | cbn; lia |].
        exists (t :: seg). split; [|split; [now constructor | split; [|exact R]]].
        * rewrite (to_come_cons _ _ E). cbn [app]. f_equal. exact A.
        * rewrite D. cbn [set_index push_leaf set_sink ps_sink map]. rewrite <- app_assoc. cbn [app]. unfold as_item at 2, leaf. cbn [fst snd tok_yield].
          unfold ps_current in E. rewrite (fit_nth _ F _ _ E). reflexivity.
      + exists []. cbn. rewrite app_nil_r. split; [reflexivity|]. split; [constructor|]. split; [reflexivity|]. split; [|exact B]. unfold rem. rewrite (to_come_cons _ _ E). exact G.
  Qed.

  Lemma bump_run s t : lengths_fit (ps_toks s) -> ps_current s = Some t ->
    exists seg, to_come s = t :: seg ++ to_come (bump ign s) /\ Forall (fun t => ign (tk_kind t) = true) seg /\
      ps_sink (bump ign s) = ps_sink s ++ map as_item (t :: seg) /\ ready (bump ign s).
  Proof.
    intros F E. unfold bump. rewrite E. unfold ps_advance, skip_trivia.
    assert (Q : ps_index s < length (ps_toks s)) by (unfold ps_current in E; apply nth_error_Some; congruence).
    edestruct (skip_run (length (ps_toks s) - S (ps_index s)) (set_index (push_leaf s t) (S (ps_index s)))) as (seg & A & C & D & R); [exact F | cbn; lia | cbn; lia |].
    exists seg. split; [|split; [exact C | split; [|exact R]]].
    - rewrite (to_come_cons _ _ E). f_equal. exact A.
    - etransitivity; [exact D|]. cbn [set_index push_leaf set_sink ps_sink map]. rewrite <- app_assoc. cbn [app]. unfold as_item at 2, leaf. cbn [fst snd tok_yield].
      unfold ps_current in E. rewrite (fit_nth _ F _ _ E). reflexivity.
  Qed.

  Lemma items_trees seg : map snd (map as_item seg) = map leaf (map tok_yield seg).
  Proof. rewrite !map_map. reflexivity. Qed.
  Lemma trivia_yield seg : Forall (fun t => ign (tk_kind t) = true) seg -> Forall (fun t => ign (fst t) = true) (map tok_yield seg).
  Proof. intros H. apply Forall_map. exact H. Qed.

  (** A run goes on from where it was; without new errors it is a derivation. *)
  Definition goes_on (s s' : pstate) : Prop :=
    ps_toks s' = ps_toks s /\ ps_srclen s' = ps_srclen s /\ ps_inc s' = ps_inc s /\ ready s'.
  Lemma goes_refl s : ready s -> goes_on s s.
  Proof. repeat split; apply H. Qed.
  Lemma goes_trans a b c : goes_on a b -> goes_on b c -> goes_on a c.
  Proof. intros (A1 & A2 & A3 & A4) (B1 & B2 & B3 & B4). repeat split; try congruence; apply B4. Qed.

  Lemma finish_run s s1 new i k ok s' : i = length (ps_sink s) -> ps_sink s1 = ps_sink s ++ new ->
    interp ign (Do (Finish i k) (fun _ _ => Done ok)) s1 = Some s' ->
    exists g, new_node k (map snd new) = Some g /\
      s' = (ok, PState (ps_toks s1) (ps_index s1) (ps_sink s ++ [(Some (ps_next s1), g)]) (S (ps_next s1)) (ps_errs s1) (ps_srclen s1) (ps_inc s1)).
  Proof.
    intros -> E H. cbn [interp exec] in H. unfold finish_at in H. cbn [snd] in H. rewrite E in H. rewrite app_length in H.
    destruct (Nat.ltb_spec (length (ps_sink s) + length new) (length (ps_sink s))); [lia|].
    rewrite skipn_app, skipn_all, Nat.sub_diag in H. cbn [app skipn] in H.
    destruct (new_node k (map snd new)) as [g|]; [|discriminate]. injection H as <-. exists g. split; [reflexivity|].
    rewrite firstn_app, firstn_all, Nat.sub_diag. cbn [firstn]. now rewrite app_nil_r.
  Qed.

  Lemma run_ok : forall f g s ok s', lengths_fit (ps_toks s) -> ps_inc s = None -> ready s -> interp ign (compile body f g) s = Some (ok, s') ->
    goes_on s s' /\ exists new e, ps_sink s' = ps_sink s ++ new /\ ps_errs s' = ps_errs s ++ e /\
      (e = [] -> ok = true /\ yields g (rem s) (map snd new) (rem s')).
  Proof.
    induction f as [|f IH]; intros g s ok s' F N R H; [cbn [compile] in H; rewrite interp_stuck in H; discriminate|].
    cbn [compile] in H. destruct g as [|k|a b|test a b|test a|a|k].
    - injection H as <- <-. split; [now apply goes_refl|]. exists [], []. rewrite !app_nil_r. split; [reflexivity | split; [reflexivity|]]. intros _. split; [reflexivity | constructor].
    - cbn [interp exec] in H. unfold expect, eat, at_kind in H. unfold peek_kind in H. destruct (ps_current s) as [t|] eqn:E; cbn [option_map] in H.
      + destruct (Nat.eqb_spec (tk_kind t) k) as [<-|Q].
        * injection H as <- <-. destruct (bump_run s t F E) as (seg & A & C & D & R'). destruct (bump_push ign s) as [l (_ & B1 & B2 & B3 & B4 & _)].
          split; [repeat split; try assumption; apply R'|]. exists (map as_item (t :: seg)), []. rewrite app_nil_r. split; [exact D | split; [exact B1|]]. intros _. split; [reflexivity|].
          rewrite items_trees. unfold rem at 1. rewrite A. cbn [map]. rewrite map_app. change (tok_yield t) with (tk_kind t, tk_end t - tk_start t). constructor.
          -- destruct R as [R _]. unfold rem in R. rewrite A in R. exact R.
          -- now apply trivia_yield.
          -- apply R'.
        * injection H as <- <-. split; [repeat split; apply R|]. exists [], [(0, current_offset s)]. rewrite app_nil_r. split; [reflexivity | split; [reflexivity | discriminate]].
      + injection H as <- <-. split; [repeat split; apply R|]. exists [], [(0, current_offset s)]. rewrite app_nil_r. split; [reflexivity | split; [reflexivity | discriminate]].
    - rewrite interp_bind in H. destruct (interp ign (compile body f a) s) as [[o1 s1]|] eqn:A; [|discriminate].
      destruct (IH _ _ _ _ F N R A) as (G1 & n1 & e1 & S1 & E1 & Y1). destruct o1.
      + assert (G1' := G1). destruct G1' as (T1 & _ & I1 & R1). rewrite <- T1 in F. rewrite <- I1 in N. destruct (IH _ _ _ _ F N R1 H) as (G2 & n2 & e2 & S2 & E2 & Y2).
        split; [eapply goes_trans; eassumption|]. exists (n1 ++ n2), (e1 ++ e2). rewrite S2, S1, E2, E1, !app_assoc. split; [reflexivity | split; [reflexivity|]]. intros Z. apply app_eq_nil in Z as [Z1 Z2].
        destruct (Y2 Z2) as [-> Y]. split; [reflexivity|]. rewrite map_app. econstructor; [now apply Y1 | exact Y].
      + injection H as <- <-. split; [exact G1|]. exists n1, e1. split; [try assumption; reflexivity | split; [try assumption; reflexivity|]]. intros Z. destruct (Y1 Z). discriminate.
    - change (interp ign (if test (peek_kind s) then compile body f a else compile body f b) s = Some (ok, s')) in H.
      rewrite peek_hk in H. assert (H' : interp ign (compile body f (if test (hk (rem s)) then a else b)) s = Some (ok, s')) by (destruct (test (hk (rem s))); exact H).
      destruct (IH _ _ _ _ F N R H') as (G1 & n1 & e1 & S1 & E1 & Y1). split; [exact G1|]. exists n1, e1. split; [try assumption; reflexivity | split; [try assumption; reflexivity|]]. intros Z. destruct (Y1 Z). split; [assumption | now constructor].
    - change (interp ign (if test (peek_kind s) then bind (compile body f a) (fun ok => if ok then compile body f (GWhile test a) else Done false) else Done true) s = Some (ok, s')) in H.
      rewrite peek_hk in H. destruct (test (hk (rem s))) eqn:Te.
      + rewrite interp_bind in H. destruct (interp ign (compile body f a) s) as [[o1 s1]|] eqn:A; [|discriminate].
        destruct (IH _ _ _ _ F N R A) as (G1 & n1 & e1 & S1 & E1 & Y1). destruct o1.
        * assert (G1' := G1). destruct G1' as (T1 & _ & I1 & R1). rewrite <- T1 in F. rewrite <- I1 in N. destruct (IH _ _ _ _ F N R1 H) as (G2 & n2 & e2 & S2 & E2 & Y2).
          split; [eapply goes_trans; eassumption|]. exists (n1 ++ n2), (e1 ++ e2). rewrite S2, S1, E2, E1, !app_assoc. split; [reflexivity | split; [reflexivity|]]. intros Z. apply app_eq_nil in Z as [Z1 Z2].
          destruct (Y2 Z2) as [-> Y]. split; [reflexivity|]. rewrite map_app. econstructor; [exact Te | now apply Y1 | exact Y].
        * injection H as <- <-. split; [exact G1|]. exists n1, e1. split; [try assumption; reflexivity | split; [try assumption; reflexivity|]]. intros Z. destruct (Y1 Z). discriminate.
      + injection H as <- <-. split; [now apply goes_refl|]. exists [], []. rewrite !app_nil_r. split; [reflexivity | split; [reflexivity|]]. intros _. split; [reflexivity | now constructor].
    - rewrite interp_bind in H. destruct (interp ign (compile body f a) s) as [[o1 s1]|] eqn:A; [|discriminate].
      destruct (IH _ _ _ _ F N R A) as (G1 & n1 & e1 & S1 & E1 & Y1). injection H as <- <-. split; [exact G1|]. exists n1, e1. split; [try assumption; reflexivity | split; [try assumption; reflexivity|]]. intros Z. destruct (Y1 Z). split; [reflexivity | now constructor].
    - unfold incremental_node in H. cbn [interp] in H. unfold try_reuse in H. rewrite N in H. rewrite interp_bind in H.
      destruct (interp ign (compile body f (body k)) s) as [[o1 s1]|] eqn:A; [|discriminate].
      destruct (IH _ _ _ _ F N R A) as (G1 & n1 & e1 & S1 & E1 & Y1). destruct (finish_run s s1 n1 _ k o1 _ eq_refl S1 H) as (g & Ng & E). injection E as -> ->.
      destruct G1 as (T1 & L1 & I1 & R1). split; [repeat split; try assumption; apply R1|]. exists [(Some (ps_next s1), g)], e1. cbn [ps_sink ps_errs]. split; [reflexivity | split; [exact E1|]].
      intros Z. destruct (Y1 Z) as [-> Y]. split; [reflexivity|]. cbn [map snd]. now apply YRule with (map snd n1).
  Qed.

  Lemma trivia_split a b c d : Forall (fun t => ign (fst t) = true) a -> Forall (fun t => ign (fst t) = true) c -> still b -> still d -> a ++ b = c ++ d -> a = c /\ b = d.
  Proof.
    intros A. revert c. induction A as [|x a Hx A IH]; intros c C B D E.
    - destruct C as [|y c Hy C]; [now split|]. cbn [app] in E. subst b. destruct y. cbn in *. congruence.
    - destruct C as [|y c Hy C]; cbn [app] in E; [subst d; destruct x; cbn in *; congruence|]. injection E as <- E. destruct (IH c C B D E) as [-> ->]. now split.
  Qed.

  (** A derivation determines the run. *)
  Lemma run_yields : forall f g s ok s' ch rest, lengths_fit (ps_toks s) -> ps_inc s = None -> ready s -> still rest -> yields g (rem s) ch rest ->
    interp ign (compile body f g) s = Some (ok, s') ->
    ok = true /\ sink_trees s' = sink_trees s ++ ch /\ rem s' = rest /\ ps_errs s' = ps_errs s.
  Proof.
    induction f as [|f IH]; intros g s ok s' ch rest F N R S Y H; [cbn [compile] in H; rewrite interp_stuck in H; discriminate|].
    pose proof (run_ok _ _ _ _ _ F N R H) as (G & _).
    cbn [compile] in H. inversion Y as [ts | k n tr r Hk Ht Hr | a b ts ca mid cb r Ha Hb | test a b ts c r Hc | test a ts St | test a ts ca mid cb r Ht Ha Hb | a ts c r Hc | k ts c g0 r Hc Ng]; subst.
    - injection H as <- <-. rewrite app_nil_r. auto.
    - cbn [interp exec] in H. unfold expect, eat, at_kind in H. rewrite peek_hk in H. rewrite <- H1 in H. cbn [hk hd_error option_map fst] in H. rewrite Nat.eqb_refl in H.
      injection H as <- <-. destruct (ps_current s) as [t|] eqn:E.
      2:{ unfold ps_current in E. apply nth_error_None in E. unfold rem, to_come in H1. rewrite skipn_all2 in H1 by lia. discriminate. }
      destruct (bump_run s t F E) as (seg & A & C & D & R'). destruct (bump_push ign s) as [l (_ & B1 & _)]. split; [reflexivity|].
      unfold rem in H1. rewrite A in H1. cbn [map] in H1. rewrite map_app in H1. injection H1 as K1 K2 K3.
      destruct (trivia_split _ _ _ _ Ht (trivia_yield _ C) Hr (proj1 R') K3) as [-> ->]. split; [|split; [reflexivity | exact B1]].
      unfold sink_trees. rewrite D, map_app, items_trees. f_equal. cbn [map]. f_equal. unfold leaf, tok_yield. cbn [fst snd]. now rewrite K1, K2.
    - rewrite interp_bind in H. destruct (interp ign (compile body f a) s) as [[o1 s1]|] eqn:A; [|discriminate].
      assert (Sm : still mid) by now apply (yields_still _ _ _ _ Hb).
      destruct (IH _ _ _ _ _ _ F N R Sm Ha A) as (-> & T1 & M1 & E1). destruct (run_ok _ _ _ _ _ F N R A) as ((T & _ & I1 & R1) & _). rewrite <- T in F. rewrite <- I1 in N. rewrite <- M1 in Hb.
      destruct (IH _ _ _ _ _ _ F N R1 S Hb H) as (-> & T2 & M2 & E2). rewrite T2, T1, M2, E2, E1, app_assoc. auto.
    - change (interp ign (if test (peek_kind s) then compile body f a else compile body f b) s = Some (ok, s')) in H.
      rewrite peek_hk in H. eapply (IH (if test (hk (rem s)) then a else b)); eauto. destruct (test (hk (rem s))); exact H.
    - change (interp ign (if test (peek_kind s) then bind (compile body f a) (fun ok => if ok then compile body f (GWhile test a) else Done false) else Done true) s = Some (ok, s')) in H.
      rewrite peek_hk, St in H. injection H as <- <-. rewrite app_nil_r. auto.
    - change (interp ign (if test (peek_kind s) then bind (compile body f a) (fun ok => if ok then compile body f (GWhile test a) else Done false) else Done true) s = Some (ok, s')) in H.
      rewrite peek_hk, Ht in H. rewrite interp_bind in H. destruct (interp ign (compile body f a) s) as [[o1 s1]|] eqn:A; [|discriminate].
      assert (Sm : still mid) by now apply (yields_still _ _ _ _ Hb).
      destruct (IH _ _ _ _ _ _ F N R Sm Ha A) as (-> & T1 & M1 & E1). destruct (run_ok _ _ _ _ _ F N R A) as ((T & _ & I1 & R1) & _). rewrite <- T in F. rewrite <- I1 in N. rewrite <- M1 in Hb.
      destruct (IH _ _ _ _ _ _ F N R1 S Hb H) as (-> & T2 & M2 & E2). rewrite T2, T1, M2, E2, E1, app_assoc. auto.
    - rewrite interp_bind in H. destruct (interp ign (compile body f a) s) as [[o1 s1]|] eqn:A; [|discriminate].
      destruct (IH _ _ _ _ _ _ F N R S Hc A) as (-> & T1 & M1 & E1). injection H as <- <-. auto.
    - unfold incremental_node in H. cbn [interp] in H. unfold try_reuse in H. rewrite N in H. rewrite interp_bind in H.
      destruct (interp ign (compile body f (body k)) s) as [[o1 s1]|] eqn:A; [|discriminate].
      destruct (IH _ _ _ _ _ _ F N R S Hc A) as (-> & T1 & M1 & E1). destruct (run_ok _ _ _ _ _ F N R A) as (_ & n1 & e1 & S1 & _).
      destruct (finish_run s s1 n1 _ k true _ eq_refl S1 H) as (g & Ng' & E). injection E as -> ->.
      assert (Q : map snd n1 = c). { unfold sink_trees in T1. rewrite S1, map_app in T1. now apply app_inv_head in T1. }
      rewrite Q, Ng in Ng'. injection Ng' as <-. split; [reflexivity|]. split; [|split; [exact M1 | exact E1]]. unfold sink_trees. cbn [ps_sink]. now rewrite map_app.
  Qed.
End Gram.

(** ** Edits *)
Lemma tiles_split {A} (sp : A -> nat * nat) l1 : forall l2 a c, tiles sp a (l1 ++ l2) c -> exists b, tiles sp a l1 b /\ tiles sp b l2 c.
Proof.
  induction l1 as [|x l1 IH]; intros l2 a c H; cbn [app] in H; [exists a; split; [constructor | exact H]|].
  inversion H as [|a' x' l e H1 H2 H3]; subst. destruct (IH _ _ _ H3) as (b & B1 & B2). exists b. split; [now constructor | exact B2].
Qed.

Lemma chain_start l : forall p e, chain p l -> In e l -> p <= e_start e.
Proof. induction l as [|x l IH]; intros p e C I; [destruct I|]. destruct C as (C1 & C2 & C3). destruct I as [<-|I]; [exact C1|]. specialize (IH _ _ C3 I). lia. Qed.

Lemma new_start_here : forall l p d np off n e, chain p l -> (0 <= Z.of_nat p + d)%Z -> (Z.of_nat p + d <= Z.of_nat np)%Z ->
  map_new_to_old (with_deltas d l) d np = Some (Z.of_nat off) -> clean l off (off + n) -> 0 < n -> In e l -> e_start e = off + n ->
  In (Z.of_nat (np + n)) (new_starts d l).
Proof.
  induction l as [|x l IH]; intros p d np off n e C P0 P1 M K N I E; [destruct I|].
  cbn [with_deltas map_new_to_old] in M. destruct C as (C1 & C2 & C3). inversion K as [|? ? Kx Kl]; subst.
  rewrite (as_usize_pos (Z.of_nat (e_start x) + d)) in M by lia.
  replace (Z.of_nat (e_end x) + d + (d + delta_of x - d))%Z with (Z.of_nat (e_end x) + (d + delta_of x))%Z in M by lia.
  assert (Hd : (Z.of_nat (e_end x) + (d + delta_of x) = Z.of_nat (e_start x) + d + Z.of_nat (length (e_text x)))%Z) by (unfold delta_of; lia).
  rewrite (as_usize_pos (Z.of_nat (e_end x) + (d + delta_of x))) in M by lia. cbn [new_starts].
  destruct (Z.ltb_spec (Z.of_nat np) (Z.of_nat (e_start x) + d)) as [L|L].
  - rewrite as_usize_pos in M by lia. injection M as M. left. destruct I as [->|I]; [lia|]. pose proof (chain_start _ _ _ C3 I). lia.
  - destruct (Z.ltb_spec (Z.of_nat np) (Z.of_nat (e_end x) + (d + delta_of x))) as [L2|L2]; [discriminate|]. right. fold (delta_of x).
    destruct I as [->|I].
    + exfalso. assert (Q : e_end e <= off); [|lia]. assert (T : forall l p d, chain p l -> (0 <= Z.of_nat p + d)%Z -> (Z.of_nat p + d <= Z.of_nat np)%Z -> map_new_to_old (with_deltas d l) d np = Some (Z.of_nat off) -> p <= off).
      { clear. induction l as [|x l IH]; intros p d C P0 P1 M; cbn [with_deltas map_new_to_old] in M; [rewrite as_usize_pos in M by lia; injection M as M; lia|].
        destruct C as (C1 & C2 & C3). rewrite (as_usize_pos (Z.of_nat (e_start x) + d)) in M by lia.
        replace (Z.of_nat (e_end x) + d + (d + delta_of x - d))%Z with (Z.of_nat (e_end x) + (d + delta_of x))%Z in M by lia.
        assert (Hd : (Z.of_nat (e_end x) + (d + delta_of x) = Z.of_nat (e_start x) + d + Z.of_nat (length (e_text x)))%Z) by (unfold delta_of; lia).
        rewrite (as_usize_pos (Z.of_nat (e_end x) + (d + delta_of x))) in M by lia.
        destruct (Z.ltb_spec (Z.of_nat np) (Z.of_nat (e_start x) + d)) as [L|L]; [rewrite as_usize_pos in M by lia; injection M as M; lia|].
        destruct (Z.ltb_spec (Z.of_nat np) (Z.of_nat (e_end x) + (d + delta_of x))) as [L2|L2]; [discriminate|].
        apply (IH _ _ C3) in M; lia. }
      apply (T _ _ _ C3) in M; lia.
    + eapply IH; [exact C3 | lia | lia | exact M | exact Kl | exact N | exact I | exact E].
Qed.

Lemma verify_nonempty : forall ts la pos target n, verify_tokens ts la pos target = Some n -> Forall (fun t => tk_start t <= tk_end t) ts ->
  (forall a t b, ts = a ++ t :: b -> tk_start t = tk_end t -> b = []) -> pos < target -> Forall (fun t => tk_start t < tk_end t) (firstn (n - la) ts) /\ la <= n.
Proof.
  induction ts as [|t r IH]; intros la pos target n H Ho He L; [discriminate|]. cbn [verify_tokens] in H. inversion Ho; subst.
  destruct (Nat.eqb_spec (tk_start t) pos) as [<-|]; [|discriminate]. cbn [negb] in H.
  destruct (Nat.eqb_spec (tk_end t) target) as [<-|].
  - injection H as <-. replace (la + 1 - la) with 1 by lia. split; [|lia]. cbn. constructor; [exact L | constructor].
  - destruct (Nat.ltb_spec target (tk_end t)); [discriminate|]. assert (Q : tk_end t < target) by lia.
    destruct (IH _ _ _ _ H H3) as [A B]; [intros a t' b E; apply (He (t :: a) t' b); now rewrite E | exact Q |].
    split; [|lia]. replace (n - la) with (S (n - (la + 1))) by lia. cbn [firstn]. constructor; [|exact A].
    destruct (Nat.eq_dec (tk_start t) (tk_end t)) as [Z|]; [|lia]. apply (He [] t r eq_refl) in Z. subst r. discriminate.
Qed.

Lemma nth_text (t t' : str) a b n : text_at t a n = text_at t' b n -> 0 < n -> b + n <= length t' ->
  a + n <= length t /\ nth (a + (n - 1)) t 0%Z = nth (b + (n - 1)) t' 0%Z.
Proof.
  intros E N L. assert (Q : length (text_at t a n) = n) by (rewrite E; unfold text_at; rewrite firstn_length, skipn_length; lia).
  unfold text_at in Q. rewrite firstn_length, skipn_length in Q. split; [lia|].
  assert (G : forall (u : str) x, x + n <= length u -> nth (x + (n - 1)) u 0%Z = nth (n - 1) (text_at u x n) 0%Z).
  { intros u x H. unfold text_at. rewrite <- (firstn_skipn x u) at 1. rewrite app_nth2 by (rewrite firstn_length; lia). rewrite firstn_length. replace (x + (n - 1) - min x (length u)) with (n - 1) by lia.
    rewrite <- (firstn_skipn n (skipn x u)) at 1. apply app_nth1. rewrite firstn_length, skipn_length. lia. }
  rewrite (G t a), (G t' b) by lia. now rewrite E.
Qed.

(** ** Reuse *)
Section Reuse.
  Variables (ign : nat -> bool) (eof : nat) (lex : str -> list token) (body : nat -> gram) (root : nat).
  Variables (text1 text2 : str) (es : list edit) (old : green) (ch1 : list green) (start1 : gram) (rest1 : list (nat * nat)).
  Variable good : str -> Prop.
  Hypothesis Hlex : local_on good ign eof lex.
  Hypothesis Hg1 : good text1.
  Hypothesis Hg2 : good text2.
  Hypothesis Hbody : self_contained body eof.
  Hypothesis Hav : forall k, avoids root (body k) = true.
  Hypothesis Hok : Forall (edit_ok text1) es.
  Hypothesis Hc : compatible es.
  Hypothesis Ht2 : text2 = simultaneous text1 es.
  Hypothesis Hcalm : calm ign (lex text2) es.
  Hypothesis Hold : new_node root ch1 = Some old.
  Hypothesis Hy : yields ign body start1 (map tok_yield (lex text1)) ch1 rest1.
  Hypothesis Hr1 : still ign rest1.

  Let edits := with_deltas 0 (sort_edits es).

  Definition sim (f i : pstate) : Prop :=
    ps_toks f = lex text2 /\ ps_srclen f = length text2 /\ ps_toks i = ps_toks f /\ ps_index i = ps_index f /\ sink_trees i = sink_trees f /\
    ps_errs i = ps_errs f /\ ps_srclen i = ps_srclen f /\ ps_inc f = None /\ exists c, ps_inc i = Some (Incremental c edits) /\ at_place old c.

  Lemma old_built : built old.
  Proof. econstructor; [|exact Hold]. exact (yields_built _ _ _ _ _ _ Hy). Qed.

  Lemma old_shape : exists n, old = GNode root n ch1.
  Proof. unfold new_node in Hold. destruct (fits_u32 (sum_len ch1)); [|discriminate]. injection Hold as <-. now eexists. Qed.

  Lemma toks2_empty a t b : lex text2 = a ++ t :: b -> tk_start t = tk_end t -> b = [].
  Proof. intros E Z. exact (proj1 (ll_empty _ _ _ _ Hlex _ _ _ _ Hg2 E Z)). Qed.

  (** A node of the old tree that is taken over is what the rule makes of the new text. *)
  Lemma hit f i k i' : sim f i -> ready ign f -> k <> root -> try_reuse k i = Some (true, i') ->
    exists n ch m c', yields ign body (body k) (rem f) ch (map tok_yield (skipn (ps_index f + m) (lex text2))) /\
      new_node k ch = Some (GNode k n ch) /\ still ign (map tok_yield (skipn (ps_index f + m) (lex text2))) /\ ps_index f + m <= length (lex text2) /\
      ps_toks i' = ps_toks i /\ ps_index i' = ps_index f + m /\ sink_trees i' = sink_trees i ++ [GNode k n ch] /\
      ps_errs i' = ps_errs i /\ ps_srclen i' = ps_srclen i /\ ps_inc i' = Some (Incremental c' edits) /\ at_place old c'.
  Proof.
    intros (T & L & Ti & Ii & Si & Ei & Li & Nf & c & Ic & Pc) [Sf If] Kr H.
    destruct (try_reuse_spec old k i true i') as [[_ Oi] Hr]; [split; [exact old_built | now rewrite Ic] | exact H |].
    destruct Hr as (inc & c' & n & ch & off & m & Ei2 & In1 & Bg & M & D & V & ->). rewrite Ic in Ei2. injection Ei2 as <-. cbn [ic_edits ps_inc ic_cursor] in *.
    set (np := current_offset i) in *.
    (* the old node *)
    destruct old_shape as [n0 Eo]. rewrite Eo, elements_eq in In1. destruct In1 as [In1|In1]; [injection In1 as -> _ _ _; contradiction|].
    destruct (yields_nodes _ _ _ _ _ _ Hy Hr1 _ _ _ _ _ In1) as (pre & post & E1 & O & Yk & Sp). cbn [Nat.add] in O.
    apply map_eq_app in E1. destruct E1 as (ta & t1 & E1 & Ea & E2). apply map_eq_app in E2. destruct E2 as (tm & tb & -> & Em & Eb).
    pose proof (ll_tiles _ _ _ _ Hlex text1 Hg1) as Tl1. rewrite E1 in Tl1. apply tiles_split in Tl1. destruct Tl1 as (x & Tl1 & Tl2). apply tiles_split in Tl2. destruct Tl2 as (y & Tl2 & Tl3).
    pose proof (tiles_sum _ _ _ Tl1) as [Q1 _]. pose proof (tiles_sum _ _ _ Tl2) as [Q2 _].
    rewrite <- (map_map tok_yield snd), Ea in Q1. rewrite <- (map_map tok_yield snd), Em in Q2. assert (Hx : x = off) by lia. rewrite Hx in Tl1, Tl2, Q2. clear x Q1 Hx.
    assert (Wn : n = list_sum (map snd (flat_map yield ch))).
    { pose proof (glen_width _ Bg) as W. cbn [glen] in W. rewrite W, <- yield_width. reflexivity. }
    assert (Hx : y = off + n) by lia. rewrite Hx in Tl2, Tl3. clear y Q2 Hx.
    destruct (Hbody k) as (Tk & Dk & Mk).
    assert (Hne : flat_map yield ch <> []) by (apply (yields_takes _ _ (fun k => proj1 (Hbody k)) _ _ _ _ Yk Tk)).
    assert (Ne1 : Forall (fun t => tk_start t < tk_end t) tm).
    { apply Forall_forall. intros t I. destruct (Nat.eq_dec (tk_start t) (tk_end t)) as [Z|Z].
      - exfalso. apply in_split in I. destruct I as (l1 & l2 & ->). rewrite <- app_assoc in E1. cbn [app] in E1. rewrite app_assoc in E1. destruct (ll_empty _ _ _ _ Hlex _ _ _ _ Hg1 E1 Z) as [_ Ke].
        pose proof (yields_eof ign body eof (ll_eof _ _ _ _ Hlex) (fun k => proj2 (proj2 (Hbody k))) _ _ _ _ Yk Mk) as Fe. rewrite <- Em, Forall_forall in Fe.
        apply (Fe (tok_yield t)); [apply in_map, in_elt | exact Ke].
      - pose proof (ll_tiles _ _ _ _ Hlex text1 Hg1) as Tx. rewrite E1 in Tx. clear - I Tl2 Z. assert (Q : forall l a b, tiles tok_span a l b -> forall t, In t l -> tk_start t <= tk_end t).
        { induction 1 as [|a x l e A B C IH]; intros t' I'; [destruct I'|]. destruct I' as [<-|I']; [cbn in A, B; lia | now apply IH]. }
        specialize (Q _ _ _ Tl2 _ I). lia. }
    assert (Npos : 0 < n).
    { destruct tm as [|t tm]; [cbn in Em; congruence|]. inversion Ne1; subst. destruct (tiles_sum _ _ _ Tl2) as [Q _]. cbn [map] in Q. rewrite list_sum_cons in Q. cbn [tok_yield snd] in Q. lia. }
    (* the new tokens *)
    assert (Tc : to_come i = to_come f) by (unfold to_come; now rewrite Ti, Ii). rewrite Tc in V.
    assert (Tn : exists a, lex text2 = a ++ to_come f /\ tiles tok_span np (to_come f) (length text2)).
    { exists (firstn (ps_index f) (lex text2)). unfold to_come. rewrite T, firstn_skipn. split; [reflexivity|].
      pose proof (ll_tiles _ _ _ _ Hlex text2 Hg2) as Tx. rewrite <- (firstn_skipn (ps_index f) (lex text2)) in Tx. apply tiles_split in Tx. destruct Tx as (b & _ & Tx).
      replace np with b; [exact Tx|]. unfold np, current_offset, ps_current. rewrite Ti, Ii, T. destruct (nth_error (lex text2) (ps_index f)) as [t|] eqn:E.
      - rewrite (skipn_nth _ _ _ E) in Tx. inversion Tx; subst. reflexivity.
      - apply nth_error_None in E. unfold to_come in V. rewrite T, skipn_all2 in V by lia. discriminate. }
    destruct Tn as (na & En & Tn).
    assert (Ord : Forall (fun t => tk_start t <= tk_end t) (to_come f)).
    { clear - Tn. induction Tn as [|a x l e A B C IH]; constructor; [cbn in A, B; lia | exact IH]. }
    assert (Emp : forall a t b, to_come f = a ++ t :: b -> tk_start t = tk_end t -> b = []).
    { intros a t b E Z. apply (toks2_empty (na ++ a) t b); [rewrite En, E; now rewrite app_assoc | exact Z]. }
    destruct (verify_nonempty _ _ _ _ _ V Ord Emp ltac:(lia)) as [Ne2 _]. rewrite Nat.sub_0_r in Ne2.
    destruct (verify_spec _ _ _ _ _ V Ord) as (m' & Em' & Bm & Tm). cbn [Nat.add] in Em'. subst m'.
    (* the same text *)
    destruct (simultaneous_go text1 es Hok Hc) as (Eg & Ch & Le). apply is_dirty_clean in D.
    assert (TX : forall n', 0 < n' -> clean (sort_edits es) off (off + n') -> text_at text2 np n' = text_at text1 off n').
    { intros n' P' C'. rewrite Ht2, Eg. pose proof (map_text text1 (sort_edits es) 0 0 np off n' Ch Le) as X. cbn [Z.of_nat Z.add] in X. rewrite Z.sub_0_r, Nat2Z.id in X. apply X; try assumption; lia. }
    assert (Cut : map tok_yield tm = map tok_yield (firstn m (to_come f))).
    { eapply (ll_cut _ _ _ _ Hlex text1 ta tm tb text2 na (firstn m (to_come f)) (skipn m (to_come f)) off np n Hg1 Hg2 E1);
        [now rewrite firstn_skipn | exact Tl2 | exact Tm | exact Ne1 | exact Ne2 | symmetry; apply TX; assumption]. }
    set (rest := skipn m (to_come f)) in *.
    assert (Er : skipn (ps_index f + m) (lex text2) = rest) by (unfold rest, to_come; rewrite T; now rewrite skipn_skipn_add).
    assert (Sr : still ign (map tok_yield rest)).
    { destruct rest as [|t r] eqn:Rr; [exact I|]. cbn [map still tok_yield]. destruct (ign (tk_kind t)) eqn:G; [exfalso|reflexivity].
      assert (Tr : tiles tok_span (np + n) (t :: r) (length text2)).
      { rewrite <- (firstn_skipn m (to_come f)) in Tn. apply tiles_split in Tn. destruct Tn as (b & B1 & B2). fold rest in B2. rewrite Rr in B2.
        destruct (tiles_sum _ _ _ B1) as [U1 _]. destruct (tiles_sum _ _ _ Tm) as [U2 _]. replace (np + n) with b by lia. exact B2. }
      assert (St : tk_start t = np + n) by (inversion Tr; subst; assumption).
      assert (It : In t (lex text2)). { rewrite En, <- (firstn_skipn m (to_come f)). fold rest. rewrite Rr. rewrite app_assoc. apply in_elt. }
      assert (Et : tk_start t < tk_end t).
      { destruct (Nat.eq_dec (tk_start t) (tk_end t)) as [Z|Z].
        - exfalso. apply in_split in It. destruct It as (u & v & It). destruct (ll_empty _ _ _ _ Hlex _ _ _ _ Hg2 It Z) as [_ Ke]. rewrite Ke, (ll_eof _ _ _ _ Hlex) in G. discriminate.
        - assert (In t (to_come f)) by (rewrite <- (firstn_skipn m (to_come f)); fold rest; rewrite Rr; apply in_elt). rewrite Forall_forall in Ord. specialize (Ord t H0). lia. }
      assert (Lt : tk_end t <= length text2). { inversion Tr as [|? ? ? ? X1 X2 X3]; subst. destruct (tiles_sum _ _ _ X3) as [_ X]. exact X. }
      assert (C' : clean (sort_edits es) off (off + S n)).
      { apply Forall_forall. intros e I [J1 J2]. assert (Es : e_start e = off + n). { unfold clean in D. rewrite Forall_forall in D. specialize (D e I). lia. }
        apply (Hcalm t It G). rewrite St. eapply (new_start_here (sort_edits es) 0 0 np off n e); try assumption; lia. }
      destruct (nth_text text1 text2 off np (S n)) as [Lx Bx]; [symmetry; apply TX; [lia | exact C'] | lia | lia |]. replace (S n - 1) with n in Bx by lia.
      destruct (ll_trivia _ _ _ _ Hlex) as (first & Fi). pose proof (Fi text2 t Hg2 It Et) as F2. rewrite St, G in F2.
      destruct tb as [|t0 tb]; [inversion Tl3; subst; lia|].
      assert (S0 : tk_start t0 = off + n) by (inversion Tl3; subst; assumption).
      assert (I0 : In t0 (lex text1)) by (rewrite E1, app_assoc; apply in_elt).
      assert (E0 : tk_start t0 < tk_end t0).
      { destruct (Nat.eq_dec (tk_start t0) (tk_end t0)) as [Z|Z].
        - exfalso. rewrite app_assoc in E1. destruct (ll_empty _ _ _ _ Hlex _ _ _ _ Hg1 E1 Z) as [-> _]. inversion Tl3 as [|? ? ? ? X1 X2 X3]; subst. inversion X3; subst. cbn in *. lia.
        - inversion Tl3 as [|? ? ? ? X1 X2 X3]; subst. cbn in *. lia. }
      pose proof (Fi text1 t0 Hg1 I0 E0) as F1. rewrite S0, Bx, <- F2 in F1. rewrite <- Eb in Sp. cbn in Sp. congruence. }
    exists n, ch, m, c'. rewrite Er.
    assert (Rf : rem f = flat_map yield ch ++ map tok_yield rest).
    { unfold rem. rewrite <- (firstn_skipn m (to_come f)). fold rest. rewrite map_app. f_equal. now rewrite <- Em, Cut. }
    split; [rewrite Rf; apply (yields_after _ _ (fun k => proj1 (Hbody k)) (fun k => proj1 (proj2 (Hbody k))) _ _ _ _ Yk); [exact Sr | rewrite Dk; discriminate]|].
    split; [exact (proj2 (built_fits _ _ _ Bg))|]. split; [exact Sr|].
    split; [unfold to_come in Bm; rewrite T, skipn_length in Bm; lia|].
    cbn [ps_toks ps_index ps_errs ps_srclen ps_inc]. rewrite Ii. repeat split; try reflexivity; [unfold sink_trees; cbn [ps_sink]; now rewrite map_app | exact Oi].
  Qed.

  Lemma miss f i k i' : sim f i -> try_reuse k i = Some (false, i') -> sim f i'.
  Proof.
    intros (T & L & Ti & Ii & Si & Ei & Li & Nf & c & Ic & Pc) H.
    unfold try_reuse in H. rewrite Ic in H. cbn [ic_edits ic_cursor] in H.
    destruct (map_new_to_old edits 0 (current_offset i)) as [target|]; [|injection H as <-; repeat split; try assumption; exists c; split; [exact Ic | exact Pc]].
    destruct (reuse_loop REUSE_ROUNDS k edits (skipn (ps_index i) (ps_toks i)) (current_offset i) target c) as [h c'] eqn:El.
    destruct (reuse_loop_spec _ _ _ _ _ _ _ _ _ _ old_built Pc El) as [Pc' _].
    destruct h as [[g m]|]; [destruct (deep_clone g); discriminate|]. injection H as <-. repeat split; try assumption. exists c'. split; [reflexivity | exact Pc'].
  Qed.

  Lemma reuse_total f i k : sim f i -> exists r i', try_reuse k i = Some (r, i').
  Proof.
    intros (T & L & Ti & Ii & Si & Ei & Li & Nf & c & Ic & Pc). unfold try_reuse. rewrite Ic. cbn [ic_edits ic_cursor].
    destruct (map_new_to_old edits 0 (current_offset i)) as [target|]; [|eexists _, _; reflexivity].
    destruct (reuse_loop REUSE_ROUNDS k edits (skipn (ps_index i) (ps_toks i)) (current_offset i) target c) as [h c'] eqn:El.
    destruct (reuse_loop_spec _ _ _ _ _ _ _ _ _ _ old_built Pc El) as [Pc' Ph].
    destruct h as [[g m]|]; [|eexists _, _; reflexivity]. destruct Ph as (n & ch & off & -> & _ & Bg & _). rewrite deep_clone_built by exact Bg. eexists _, _; reflexivity.
  Qed.

  Lemma skip_same : forall n f i, ps_toks i = ps_toks f -> ps_index i = ps_index f -> sink_trees i = sink_trees f ->
    ps_index (skip_trivia_loop ign n i) = ps_index (skip_trivia_loop ign n f) /\ sink_trees (skip_trivia_loop ign n i) = sink_trees (skip_trivia_loop ign n f).
  Proof.
    clear. induction n as [|n IH]; intros f i T I S; [now split|]. cbn [skip_trivia_loop]. unfold ps_current. rewrite T, I.
    destruct (nth_error (ps_toks f) (ps_index f)) as [t|]; [|now split]. destruct (ign (tk_kind t)); [|now split]. apply IH; [exact T | cbn; now rewrite I |].
    unfold sink_trees in *. cbn. now rewrite !map_app, S.
  Qed.

  Lemma bump_sim f i : sim f i -> sim (bump ign f) (bump ign i).
  Proof.
    clear Hcalm. intros (T & L & Ti & Ii & Si & Ei & Li & Nf & c & Ic & Pc).
    destruct (bump_push ign f) as [lf (_ & F1 & F2 & F3 & F4 & _)]. destruct (bump_push ign i) as [li (_ & I1 & I2 & I3 & I4 & _)].
    assert (Q : ps_index (bump ign i) = ps_index (bump ign f) /\ sink_trees (bump ign i) = sink_trees (bump ign f)).
    { unfold bump, ps_current. rewrite Ti, Ii. destruct (nth_error (ps_toks f) (ps_index f)) as [t|]; [|now split]. unfold ps_advance, skip_trivia. cbn [ps_toks ps_index set_index push_leaf set_sink]. rewrite Ti, Ii. apply skip_same.
      - exact Ti.
      - cbn. now rewrite ?Ii.
      - unfold sink_trees in *. cbn. now rewrite !map_app, Si. }
    destruct Q as [Q1 Q2]. repeat split; try congruence. exists c. split; [congruence | exact Pc].
  Qed.

  Lemma finish_sim f i n k itf f' : sim f i -> finish_at f (0, n) k = Some (itf, f') ->
    exists x i', finish_at i (0, n) k = Some ((Some x, snd itf), i') /\ sim f' i' /\ last_node i' = Some (snd itf) /\ last_node f' = Some (snd itf).
  Proof.
    clear Hcalm. intros (T & L & Ti & Ii & Si & Ei & Li & Nf & c & Ic & Pc) H. unfold finish_at in *. cbn [snd] in *.
    assert (Q : length (ps_sink i) = length (ps_sink f)) by (unfold sink_trees in Si; rewrite <- (map_length snd (ps_sink i)), Si; apply map_length). rewrite Q.
    destruct (length (ps_sink f) <? n); [discriminate|].
    assert (E : map snd (skipn n (ps_sink i)) = map snd (skipn n (ps_sink f))) by (unfold sink_trees in Si; now rewrite <- !skipn_map, Si). rewrite E.
    destruct (new_node k (map snd (skipn n (ps_sink f)))) as [g|]; [|discriminate]. injection H as <- <-. cbn [snd].
    eexists _, _. split; [reflexivity|]. unfold last_node. cbn [ps_sink]. rewrite !rev_app_distr. cbn. split; [|now split].
    repeat split; try assumption; cbn; [|now exists c].
    unfold sink_trees in *. cbn [ps_sink]. rewrite !map_app, <- !firstn_map, Si. reflexivity.
  Qed.

  Lemma peek_sim f i : sim f i -> peek_kind i = peek_kind f.
  Proof. intros (T & L & Ti & Ii & _). unfold peek_kind, ps_current. now rewrite Ti, Ii. Qed.

  Lemma sim_fit f i : sim f i -> lengths_fit (ps_toks f).
  Proof. intros (T & _). rewrite T. apply (ll_fit _ _ _ _ Hlex); exact Hg2. Qed.

  Lemma simulate : forall fuel g f i ok f', sim f i -> ready ign f -> avoids root g = true -> interp ign (compile body fuel g) f = Some (ok, f') ->
    exists i', interp ign (compile body fuel g) i = Some (ok, i') /\ sim f' i' /\ ready ign f'.
  Proof.
    induction fuel as [|fu IH]; intros g f i ok f' S R A H; [cbn [compile] in H; rewrite interp_stuck in H; discriminate|].
    assert (Ff := sim_fit _ _ S). assert (Nf : ps_inc f = None) by apply S.
    destruct (run_ok ign body _ _ _ _ _ Ff Nf R H) as ((_ & _ & _ & R') & _). 
    cbn [compile] in *. destruct g as [|k|a b|test a b|test a|a|k]; cbn [avoids] in A.
    - injection H as <- <-. exists i. split; [reflexivity | split; assumption].
    - cbn [interp exec] in *. unfold expect, eat, at_kind in *. rewrite (peek_sim _ _ S). destruct (match peek_kind f with Some k' => k' =? k | None => false end).
      + injection H as <- <-. eexists. split; [reflexivity|]. split; [now apply bump_sim | exact R'].
      + injection H as <- <-. eexists. split; [reflexivity|]. split; [|exact R']. destruct S as (T & L & Ti & Ii & Si & Ei & Li & Ni & c & Ic & Pc). repeat split; try assumption; [|now exists c].
        cbn. rewrite Ei. unfold current_offset, ps_current. now rewrite Ti, Ii, Li.
    - apply andb_true_iff in A as [A1 A2]. rewrite interp_bind in *. destruct (interp ign (compile body fu a) f) as [[o1 f1]|] eqn:X; [|discriminate].
      destruct (IH _ _ _ _ _ S R A1 X) as (i1 & -> & S1 & R1). destruct o1; [now apply (IH b f1 i1)|]. injection H as <- <-. exists i1. split; [reflexivity | split; assumption].
    - apply andb_true_iff in A as [A1 A2].
      change (interp ign (if test (peek_kind f) then compile body fu a else compile body fu b) f = Some (ok, f')) in H.
      change (exists i', interp ign (if test (peek_kind i) then compile body fu a else compile body fu b) i = Some (ok, i') /\ sim f' i' /\ ready ign f').
      rewrite (peek_sim _ _ S). destruct (test (peek_kind f)); [now apply (IH a f i) | now apply (IH b f i)].
    - change (interp ign (if test (peek_kind f) then bind (compile body fu a) (fun ok => if ok then compile body fu (GWhile test a) else Done false) else Done true) f = Some (ok, f')) in H.
      change (exists i', interp ign (if test (peek_kind i) then bind (compile body fu a) (fun ok => if ok then compile body fu (GWhile test a) else Done false) else Done true) i = Some (ok, i') /\ sim f' i' /\ ready ign f').
      rewrite (peek_sim _ _ S). destruct (test (peek_kind f)).
      + rewrite interp_bind in *. destruct (interp ign (compile body fu a) f) as [[o1 f1]|] eqn:X; [|discriminate].
        destruct (IH _ _ _ _ _ S R A X) as (i1 & -> & S1 & R1). destruct o1; [now apply (IH (GWhile test a) f1 i1)|]. injection H as <- <-. exists i1. split; [reflexivity | split; assumption].
      + injection H as <- <-. exists i. split; [reflexivity | split; assumption].
    - rewrite interp_bind in *. destruct (interp ign (compile body fu a) f) as [[o1 f1]|] eqn:X; [|discriminate].
      destruct (IH _ _ _ _ _ S R A X) as (i1 & -> & S1 & R1). injection H as <- <-. exists i1. split; [reflexivity | split; assumption].
    - assert (Kr : k <> root) by (intros ->; rewrite Nat.eqb_refl in A; discriminate).
      unfold incremental_node in *. cbn [interp] in *.
      assert (Zf : try_reuse k f = Some (false, f)) by (unfold try_reuse; now rewrite Nf). rewrite Zf in H. rewrite interp_bind in H.
      destruct (interp ign (compile body fu (body k)) f) as [[o1 f1]|] eqn:X; [|discriminate].
      destruct (reuse_total f i k S) as (r & i1 & Er). rewrite Er. destruct r.
      + destruct (hit f i k i1 S R Kr Er) as (n & ch & m & c' & Y & Ng & Sr & Lm & T1 & I1 & S1 & E1 & L1 & N1 & P1).
        destruct (run_yields ign body _ _ _ _ _ _ _ Ff Nf R Sr Y X) as (-> & Tf & Mf & Ef).
        destruct (run_ok ign body _ _ _ _ _ Ff Nf R X) as ((Gt & Gl & Gi & Gr) & new & e & Sn & _).
        destruct (finish_run ign body f f1 new _ k true _ eq_refl Sn H) as (g & Ng' & E). injection E as -> ->.
        assert (Q : map snd new = ch). { unfold sink_trees in Tf. rewrite Sn, map_app in Tf. now apply app_inv_head in Tf. }
        rewrite Q, Ng in Ng'. injection Ng' as <-. exists i1. cbn [interp]. split; [reflexivity|]. split; [|exact R'].
        destruct S as (T & L & Ti & Ii & Si & Ei & Li & Ni & c & Ic & Pc). unfold sim. cbn [ps_toks ps_index ps_errs ps_srclen ps_inc].
        split; [congruence|]. split; [congruence|]. split; [congruence|].
        split. { rewrite I1. assert (Q' := f_equal (@length _) Mf). unfold rem, to_come in Q'. rewrite !map_length, !skipn_length, Gt, T in Q'. destruct Gr as [_ Gr]. rewrite Gt, T in Gr. lia. }
        split. { rewrite S1, Si. unfold sink_trees. cbn [ps_sink]. now rewrite map_app. }
        split; [congruence|]. split; [congruence|]. split; [congruence|]. exists c'. now split.
      + pose proof (miss f i k i1 S Er) as S1. cbn beta iota zeta. rewrite interp_bind.
        destruct (IH _ _ _ _ _ S1 R (Hav k) X) as (i2 & -> & S2 & R2).
        assert (Q : length (ps_sink i1) = length (ps_sink f)) by (destruct S1 as (_ & _ & _ & _ & Si & _); unfold sink_trees in Si; rewrite <- (map_length snd (ps_sink i1)), Si; apply map_length).
        cbn [interp exec] in *. rewrite Q. destruct (finish_at f1 (0, length (ps_sink f)) k) as [[itf f2]|] eqn:Fi; [|discriminate].
        destruct (finish_sim _ _ _ _ _ _ S2 Fi) as (x & i3 & -> & S3 & _). injection H as <- <-. exists i3. split; [reflexivity | split; assumption].
  Qed.
End Reuse.
