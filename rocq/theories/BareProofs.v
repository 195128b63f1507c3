(** The parsers without nodes. *)
From Verif Require Import Base Utf8 LexModel TreeModel TreeSpec TreeProofs ParserModel ParserSpec ParserProofs LangSpec LangParseProofs BareModel BareSpec.

Lemma leads_split ign ts lead rest : leads ign ts lead rest -> lead = trivia ign ts /\ rest = no_trivia ign ts.
Proof.
  intros (-> & F & H). induction F as [| t lead I _ IH]; cbn.
  - destruct rest as [| t r]; [now split|]. cbn. now rewrite (H t r eq_refl).
  - rewrite I. destruct IH as [<- <-]. now split.
Qed.
Lemma leads_exists ign ts : leads ign ts (trivia ign ts) (no_trivia ign ts).
Proof.
  induction ts as [| t r (E & F & H)]; cbn.
  - split; [reflexivity|]. split; [constructor | discriminate].
  - destruct (ign (tk_kind t)) eqn:I.
    + split; [cbn; now rewrite <- E|]. split; [now constructor | exact H].
    + split; [reflexivity|]. split; [constructor|]. intros x y X. now injection X as -> ->.
Qed.
Lemma trivia_app ign ts : trivia ign ts ++ no_trivia ign ts = ts.
Proof. destruct (leads_exists ign ts) as (E & _). now symmetry. Qed.
Lemma no_trivia_length ign ts : length (no_trivia ign ts) <= length ts.
Proof. rewrite <- (trivia_app ign ts) at 2. rewrite app_length. lia. Qed.
Lemma picked_filter ign ts us : picked (fun t => ign (tk_kind t) = true) ts us <-> us = filter (fun t => ign (tk_kind t)) ts.
Proof.
  split.
  - induction 1 as [| t ts us H _ IH | t ts us H _ IH]; cbn; [reflexivity | now rewrite H, IH |]. destruct (ign (tk_kind t)); [contradiction | assumption].
  - intros ->. induction ts as [| t ts IH]; cbn; [constructor|]. destruct (ign (tk_kind t)) eqn:I; [now constructor|]. constructor; [congruence | assumption].
Qed.
Lemma trivia_filter ign ts : filter (fun t => ign (tk_kind t)) ts = trivia ign ts ++ filter (fun t => ign (tk_kind t)) (no_trivia ign ts).
Proof. induction ts as [| t r IH]; cbn; [reflexivity|]. destruct (ign (tk_kind t)) eqn:I; cbn; [now rewrite IH|]. now rewrite I. Qed.
Lemma leaves_of ts gs : Forall2 as_leaf ts gs <-> gs = map tokleaf ts.
Proof.
  split.
  - induction 1 as [| t g ts gs H _ IH]; cbn; [reflexivity|]. unfold as_leaf in H. now rewrite H, IH.
  - intros ->. induction ts; cbn; [constructor|]. constructor; [reflexivity | assumption].
Qed.

Section Run.
  Variable (ign : nat -> bool) (toks : list token).
  Hypothesis Hfit : (Z.of_nat (toklen toks) < 2 ^ 32)%Z.

  Lemma advance_errs s : ps_errs (ps_advance ign s) = ps_errs s.
  Proof. unfold ps_advance, skip_trivia. destruct (skip_loop_push ign (length (ps_toks (set_index s (S (ps_index s)))) - ps_index (set_index s (S (ps_index s)))) (set_index s (S (ps_index s)))) as (l & _ & E & _). now rewrite E. Qed.

  Lemma sees_advance s t rest trees : sees toks s (t :: rest) trees -> sees toks (ps_advance ign s) (no_trivia ign rest) (trees ++ map tokleaf (trivia ign rest)).
  Proof.
    intros V. assert (V1 : sees toks (set_index s (S (ps_index s))) rest trees).
    { destruct V as (T & I & R & K & B & W & N). assert (I' : ps_index s < length toks). { destruct (Nat.ltb_spec (ps_index s) (length toks)); [assumption|]. rewrite skipn_all2 in R by lia. discriminate. }
      unfold sees. cbn [set_index ps_toks ps_index ps_sink ps_errs ps_inc]. split; [assumption|]. split; [lia|]. split.
      { destruct (nth_error toks (ps_index s)) as [x|] eqn:E; [|apply nth_error_None in E; lia]. rewrite (skipn_nth _ _ _ E) in R. congruence. }
      split; [assumption|]. split; [assumption|]. split; [|assumption]. rewrite toklen_cons in W. lia. }
    unfold ps_advance, skip_trivia. rewrite (sees_length _ _ _ _ V1). apply (sees_skip ign toks Hfit); [assumption | lia].
  Qed.

  Lemma bump_loop : forall fuel s rest trees, sees toks s (no_trivia ign rest) trees -> length rest < fuel ->
    exists s', bare_loop (bump ign) fuel s = Some s' /\ sees toks s' [] (trees ++ map tokleaf (no_trivia ign rest)) /\ ps_errs s' = ps_errs s.
  Proof.
    induction fuel as [| f IH]; intros s rest trees V L; [lia|]. cbn [bare_loop]. rewrite (sees_end _ _ _ _ V). pose proof (no_trivia_length ign rest) as N. destruct (no_trivia ign rest) as [| t r] eqn:E.
    - exists s. split; [reflexivity|]. cbn. rewrite app_nil_r. now split.
    - pose proof (sees_bump ign toks Hfit s t r trees V) as V1. cbn [length] in N. destruct (IH _ _ _ V1 ltac:(lia)) as (s' & -> & V' & Er). exists s'. split; [reflexivity|]. split; [|rewrite Er; apply bump_errs].
      rewrite <- app_assoc in V'. cbn [app] in V'. rewrite <- map_app, trivia_app in V'. exact V'.
  Qed.

  Lemma advance_loop_all : forall fuel s rest trees, sees toks s (no_trivia ign rest) trees -> length rest < fuel ->
    exists s', bare_loop (ps_advance ign) fuel s = Some s' /\ sees toks s' [] (trees ++ map tokleaf (filter (fun t => ign (tk_kind t)) (no_trivia ign rest))) /\ ps_errs s' = ps_errs s.
  Proof.
    induction fuel as [| f IH]; intros s rest trees V L; [lia|]. cbn [bare_loop]. rewrite (sees_end _ _ _ _ V). pose proof (no_trivia_length ign rest) as N. destruct (leads_exists ign rest) as (_ & _ & H). destruct (no_trivia ign rest) as [| t r] eqn:E.
    - exists s. split; [reflexivity|]. cbn. rewrite app_nil_r. now split.
    - pose proof (sees_advance s t r trees V) as V1. cbn [length] in N. destruct (IH _ _ _ V1 ltac:(lia)) as (s' & -> & V' & Er). exists s'. split; [reflexivity|]. split; [|rewrite Er; apply advance_errs].
      rewrite <- app_assoc, <- map_app, <- trivia_filter in V'. cbn [filter]. now rewrite (H t r eq_refl).
  Qed.

  Lemma bare_finish s n errs k ch : s = ps_new ign toks n errs -> forall s1, sees toks s1 [] (map tokleaf (trivia ign toks) ++ ch) ->
    exists i s2, finish_at s1 (checkpoint s) k = Some ((Some i, gnode k ch), s2) /\ ps_errs s2 = ps_errs s1.
  Proof.
    intros -> s1 V. destruct (sees_new ign toks Hfit n errs) as [V0 _]. unfold checkpoint.
    assert (E : length (ps_sink (ps_new ign toks n errs)) = length (map tokleaf (trivia ign toks))). { destruct V0 as (_ & _ & _ & K & _). now rewrite <- K, map_length. }
    rewrite E. destruct (sees_finish ign toks Hfit s1 [] _ ch (ps_index (ps_new ign toks n errs)) k V) as (i & s2 & F & _ & Er). now exists i, s2.
  Qed.

  Lemma bumping_tree k n errs : bumping_parse ign k toks n errs = Some (gnode k (map tokleaf (no_trivia ign toks)), errs).
  Proof.
    unfold bumping_parse, bare_parse. destruct (sees_new ign toks Hfit n errs) as [V E]. destruct (bump_loop (S (length toks)) _ toks _ V ltac:(lia)) as (s1 & -> & V1 & E1).
    destruct (bare_finish _ n errs k _ eq_refl s1 V1) as (i & s2 & -> & E2). now rewrite E2, E1, E.
  Qed.
  Lemma advancing_tree k n errs : advancing_parse ign k toks n errs = Some (gnode k (map tokleaf (filter (fun t => ign (tk_kind t)) (no_trivia ign toks))), errs).
  Proof.
    unfold advancing_parse, bare_parse. destruct (sees_new ign toks Hfit n errs) as [V E]. destruct (advance_loop_all (S (length toks)) _ toks _ V ltac:(lia)) as (s1 & -> & V1 & E1).
    destruct (bare_finish _ n errs k _ eq_refl s1 V1) as (i & s2 & -> & E2). now rewrite E2, E1, E.
  Qed.
End Run.

Lemma width_leaves ts : list_sum (map width (map tokleaf ts)) = toklen ts.
Proof. unfold toklen. now rewrite map_map. Qed.
Lemma filter_len (p : token -> bool) ts : toklen (filter p ts) + toklen (filter (fun t => negb (p t)) ts) = toklen ts.
Proof. induction ts as [| t ts IH]; [reflexivity|]. rewrite (toklen_cons t ts). cbn [filter]. destruct (p t); cbn [negb]; rewrite toklen_cons; lia. Qed.
Lemma filter_in_len (p : token -> bool) t ts : In t ts -> p t = true -> tk_end t - tk_start t <= toklen (filter p ts).
Proof. induction ts as [| x ts IH]; intros H P; [contradiction|]. destruct H as [-> | I]; cbn [filter]; [rewrite P, toklen_cons; lia|]. specialize (IH I P). destruct (p x); [rewrite toklen_cons|]; lia. Qed.
