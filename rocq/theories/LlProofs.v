(** The LLVM IR parser: it ends for every list of tokens, and leaves out only tokens that begin no item. *)
From Verif Require Import Base Utf8 Utf8Facts RopeModel LexModel TreeModel TreeSpec TreeProofs VfsModel ParserModel ParserSpec ParserProofs JsonLangSpec LangSpec LangParseProofs.
From Verif Require Import BareModel BareSpec BareProofs IniModel LlModel LlSpec.

Lemma thins_app {A} (P : A -> Prop) a b c d : thins P a b -> thins P c d -> thins P (a ++ c) (b ++ d).
Proof. induction 1; intros H'; cbn [app]; [assumption | constructor; auto | constructor; auto]. Qed.
Lemma thins_all {A} (P : A -> Prop) a : thins P a a.
Proof. induction a; constructor; assumption. Qed.

Section Run.
  Variable (text : str) (toks : list token).
  Hypothesis Hfit : (Z.of_nat (toklen toks) < 2 ^ 32)%Z.
  Notation ign := ll_ignored.
  Notation lead := (map tokleaf (trivia ign toks)).

  Definition lost (t : token) : Prop := stray (tk_kind t) (flat_text_in text (tk_start t) (tk_end t)).
  Definition Inv (s : pstate) : Prop := exists rest new used kept, sees toks s rest (lead ++ new) /\ no_trivia ign toks = used ++ rest /\ thins lost used kept /\
    flat_map yield new = map tok_yield kept /\ match rest with t :: _ => ign (tk_kind t) = false | [] => True end /\ ps_errs s = [].
  Definition left (s : pstate) : nat := length toks - ps_index s.

  Lemma leaves_yield ts : flat_map yield (map tokleaf ts) = map tok_yield ts.
  Proof. induction ts as [| t r IH]; [reflexivity|]. cbn. now rewrite IH. Qed.
  Lemma no_trivia_head ts : match no_trivia ign ts with t :: _ => ign (tk_kind t) = false | [] => True end.
  Proof. induction ts as [| t r IH]; [exact Logic.I|]. cbn [no_trivia]. destruct (ign (tk_kind t)) eqn:E; [exact IH | exact E]. Qed.
  Lemma left_sees s rest trees : sees toks s rest trees -> left s = length rest.
  Proof. intros V. pose proof (sees_length _ _ _ _ V) as L. destruct V as (T & _). unfold left. now rewrite <- T at 1. Qed.
  Lemma sink_sees s rest trees : sees toks s rest trees -> length (ps_sink s) = length trees.
  Proof. intros (_ & _ & _ & E & _). now rewrite <- E, map_length. Qed.

  (** [s'] comes after [s] *)
  Definition after (s s' : pstate) : Prop := Inv s' /\ length (ps_sink s) <= length (ps_sink s') /\ left s' <= left s.
  Lemma after_refl s : Inv s -> after s s.
  Proof. intros I. split; [exact I|]. lia. Qed.
  Lemma after_trans a b c : after a b -> after b c -> after a c.
  Proof. intros (_ & A1 & A2) (I & B1 & B2). split; [exact I|]. lia. Qed.

  Lemma bump_after s : Inv s -> after s (ll_bump s) /\ (ps_not_at_end s = true -> left (ll_bump s) < left s).
  Proof.
    intros (rest & new & used & kept & V & Es & Th & Y & H & Er). unfold ll_bump. rewrite (sees_end _ _ _ _ V). destruct rest as [| t rest].
    - assert (E : bump ign s = s) by (unfold bump; now rewrite (sees_current _ _ _ _ V)). rewrite E. split; [|discriminate]. apply after_refl. exists [], new, used, kept. split; [exact V|]. split; [exact Es|]. split; [exact Th|]. split; [exact Y|]. now split.
    - pose proof (sees_bump ign toks Hfit s t rest _ V) as V1. pose proof (no_trivia_length ign rest) as L. split.
      + split; [|rewrite (sink_sees _ _ _ V), (sink_sees _ _ _ V1), (left_sees _ _ _ V), (left_sees _ _ _ V1), !app_length; cbn [length]; lia].
        rewrite <- app_assoc in V1. exists (no_trivia ign rest), (new ++ tokleaf t :: map tokleaf (trivia ign rest)), (used ++ t :: trivia ign rest), (kept ++ t :: trivia ign rest).
        split; [exact V1|]. split; [rewrite <- app_assoc; cbn [app]; now rewrite trivia_app|]. split; [apply thins_app; [exact Th | apply thins_all]|].
        split; [|split; [apply no_trivia_head | now rewrite bump_errs]]. rewrite flat_map_app, map_app, Y. f_equal. change (tokleaf t :: map tokleaf (trivia ign rest)) with (map tokleaf (t :: trivia ign rest)). apply leaves_yield.
      + intros _. rewrite (left_sees _ _ _ V), (left_sees _ _ _ V1). cbn [length]. lia.
  Qed.
  Lemma drop_after s t : Inv s -> ps_current s = Some t -> lost t -> after s (ps_advance ign s) /\ left (ps_advance ign s) < left s.
  Proof.
    intros (rest & new & used & kept & V & Es & Th & Y & H & Er) C D. rewrite (sees_current _ _ _ _ V) in C. destruct rest as [| t' rest]; [discriminate|]. injection C as ->.
    pose proof (sees_advance ign toks Hfit s t rest _ V) as V1. pose proof (no_trivia_length ign rest) as L. split.
    - split; [|rewrite (sink_sees _ _ _ V), (sink_sees _ _ _ V1), (left_sees _ _ _ V), (left_sees _ _ _ V1), !app_length; cbn [length]; lia].
      rewrite <- app_assoc in V1. exists (no_trivia ign rest), (new ++ map tokleaf (trivia ign rest)), (used ++ t :: trivia ign rest), (kept ++ trivia ign rest).
      split; [exact V1|]. split; [rewrite <- app_assoc; cbn [app]; now rewrite trivia_app|]. split; [apply thins_app; [exact Th | apply ThDrop; [exact D | apply thins_all]]|].
      split; [|split; [apply no_trivia_head | now rewrite advance_errs]]. rewrite flat_map_app, map_app, Y. f_equal. apply leaves_yield.
    - rewrite (left_sees _ _ _ V), (left_sees _ _ _ V1). cbn [length]. lia.
  Qed.

  (** [finish_at] at a checkpoint of an earlier state *)
  Lemma finish_after s0 s cp k : Inv s0 -> after s0 s -> snd cp = length (ps_sink s0) -> exists s', ll_finish cp k s = Some (true, s') /\ after s0 s' /\ left s' = left s /\ length (ps_sink s') = S (snd cp).
  Proof.
    intros I0 (I & Ls & Lf) Ec. destruct I0 as (rest0 & new0 & _ & _ & V0 & _). destruct I as (rest & new & used & kept & V & Es & Th & Y & H & Er).
    pose proof (sink_sees _ _ _ V0) as L0. pose proof (sink_sees _ _ _ V) as L1. rewrite app_length in L0, L1. set (n := length (ps_sink s0) - length lead).
    assert (En : lead ++ new = (lead ++ firstn n new) ++ skipn n new) by (rewrite <- app_assoc; now rewrite firstn_skipn). rewrite En in V.
    assert (Lc : length (lead ++ firstn n new) = snd cp) by (rewrite app_length, firstn_length; unfold n; lia).
    destruct cp as [i c]. cbn [snd] in *. subst c. destruct (sees_finish ign toks Hfit s rest (lead ++ firstn n new) (skipn n new) i k V) as (m & s' & E & V' & Er'). exists s'. unfold ll_finish. rewrite <- Lc, E. split; [reflexivity|].
    assert (Lf' : left s' = left s) by (now rewrite (left_sees _ _ _ V), (left_sees _ _ _ V')).
    assert (Ls' : length (ps_sink s') = S (length (lead ++ firstn n new))) by (rewrite (sink_sees _ _ _ V'), app_length; cbn [length]; lia).
    split; [|now split]. split; [|rewrite Ls'; lia]. exists rest, (firstn n new ++ [gnode k (skipn n new)]), used, kept. rewrite app_assoc. split; [exact V'|]. split; [exact Es|]. split; [exact Th|]. split; [|split; [exact H | congruence]].
    rewrite <- Y. rewrite <- (firstn_skipn n new) at 3. rewrite !flat_map_app. f_equal. unfold gnode. cbn [flat_map]. now rewrite yield_node, app_nil_r.
  Qed.

  (** A step of the parser: it ends, in a later state with at most [n] tokens to come or with one diagnostic *)
  Definition ends (n : nat) (s : pstate) (r : option (bool * pstate)) : Prop := exists b s', r = Some (b, s') /\ if b then after s s' /\ left s' <= n else length (ps_errs s') = 1.
  Lemma ends_andthen m n s0 s1 s (a b : step) : ends m s1 (a s) -> (forall s', after s1 s' -> left s' <= m -> ends n s0 (b s')) -> ends n s0 (andthen a b s).
  Proof. intros (x & s' & E & H) F. unfold andthen. rewrite E. destruct x; [now apply F | exists false, s'; now split]. Qed.
  Lemma ends_true n s s' : after s s' -> left s' <= n -> ends n s (Some (true, s')).
  Proof. intros A L. exists true, s'. now split. Qed.
  Lemma ends_later n s s1 r : after s s1 -> ends n s1 r -> ends n s r.
  Proof. intros A (b & s' & E & H). exists b, s'. split; [exact E|]. destruct b; [|exact H]. destruct H as [H L]. split; [now apply (after_trans s s1) | exact L]. Qed.
  Lemma ends_weaken m n s r : m <= n -> ends m s r -> ends n s r.
  Proof. intros L (b & s' & E & H). exists b, s'. split; [exact E|]. destruct b; [|exact H]. destruct H as [H Lm]. split; [exact H | lia]. Qed.
  Lemma ends_finish n s0 s cp k : Inv s0 -> after s0 s -> snd cp = length (ps_sink s0) -> left s <= n -> ends n s0 (ll_finish cp k s).
  Proof. intros I A E L. destruct (finish_after s0 s cp k I A E) as (s' & -> & A' & L' & _). apply ends_true; [exact A' | lia]. Qed.
  Lemma at_not_end s k : Inv s -> at_kind s k = true -> ps_not_at_end s = true.
  Proof. intros (rest & new & used & kept & V & _) E. rewrite (sees_at _ _ _ _ _ V) in E. rewrite (sees_end _ _ _ _ V). now destruct rest. Qed.
  Lemma ends_expect k s : Inv s -> ends (left s - 1) s (ll_expect k s).
  Proof.
    intros I. unfold ll_expect, expect, eat. destruct (at_kind s k) eqn:K.
    - destruct (bump_after s I) as [A L]. specialize (L (at_not_end s k I K)). apply ends_true; [exact A | fold ll_bump; change (bump ign s) with (ll_bump s); lia].
    - exists false, (push_error s 0 (current_offset s)). split; [reflexivity|]. destruct I as (rest & new & used & kept & _ & _ & _ & _ & _ & Er). cbn [push_error ps_errs]. now rewrite Er.
  Qed.
  Lemma while_after go body : (forall s, Inv s -> ps_not_at_end s = true -> after s (body s)) -> forall n s, Inv s -> after s (ll_while go body n s).
  Proof.
    intros B. induction n as [| n IH]; intros s I; cbn [ll_while]; [now apply after_refl|]. destruct (ps_not_at_end s && go s) eqn:E; [|now apply after_refl]. apply andb_true_iff in E. destruct E as [E _].
    pose proof (B s I E) as A. apply (after_trans _ (body s)); [exact A|]. apply IH. apply A.
  Qed.
  Lemma bumps_after go s : Inv s -> after s (ll_loop go ll_bump s).
  Proof. intros I. apply while_after; [|exact I]. intros x Ix _. now apply bump_after. Qed.
  Lemma skip_after s : Inv s -> after s (ll_skip s).
  Proof. apply bumps_after. Qed.
  Lemma bump_skip_after s : Inv s -> after s (ll_skip (ll_bump s)).
  Proof. intros I. destruct (bump_after s I) as [A _]. apply (after_trans _ (ll_bump s)); [exact A|]. apply skip_after, A. Qed.
  Lemma bump_skips_after go s : Inv s -> after s (ll_loop go (fun s => ll_skip (ll_bump s)) s).
  Proof. intros I. apply while_after; [|exact I]. intros x Ix _. now apply bump_skip_after. Qed.
  (** A loop that begins takes a token *)
  Lemma bumps_take go s : Inv s -> ps_not_at_end s = true -> go s = true -> left (ll_loop go ll_bump s) < left s.
  Proof.
    intros I E G. unfold ll_loop. pose proof I as (rest & new & used & kept & V & _). rewrite (sees_length _ _ _ _ V). rewrite (sees_end _ _ _ _ V) in E. destruct rest as [| t rest]; [discriminate|]. cbn [length ll_while]. rewrite (sees_end _ _ _ _ V), G. cbn [andb].
    destruct (bump_after s I) as [A L]. rewrite (sees_end _ _ _ _ V) in L. specialize (L eq_refl).
    destruct (while_after go ll_bump (fun x Ix _ => proj1 (bump_after x Ix)) (length rest) (ll_bump s) (proj1 A)) as (_ & _ & L2). lia.
  Qed.
  (** After the gap a token of no gap *)
  Lemma skip_stops s : Inv s -> ps_not_at_end (ll_skip s) = true -> at_gap (ll_skip s) = false.
  Proof.
    unfold ll_skip, ll_loop. intros I. assert (G : forall n s, Inv s -> left s <= n -> ps_not_at_end (ll_while at_gap ll_bump n s) = true -> at_gap (ll_while at_gap ll_bump n s) = false).
    { induction n as [| n IH]; intros x Ix L; cbn [ll_while].
      - intros E. destruct Ix as (rest & new & used & kept & V & _). rewrite (left_sees _ _ _ V) in L. rewrite (sees_end _ _ _ _ V) in E. destruct rest; [discriminate | cbn in L; lia].
      - destruct (ps_not_at_end x) eqn:E; cbn [andb]; [|rewrite E; discriminate]. destruct (at_gap x) eqn:G; [|now intros _]. destruct (bump_after x Ix) as [A Lt]. specialize (Lt E). apply IH; [apply A | lia]. }
    apply G; [exact I|]. unfold left. destruct I as (rest & new & used & kept & (T & _) & _). now rewrite T.
  Qed.

  Lemma global_ends s : Inv s -> ends (left s - 1) s (ll_global text s).
  Proof.
    intros I. unfold ll_global. cbv zeta. apply (ends_andthen (left s - 1) _ s s); [now apply ends_expect|]. intros s1 A1 L1. pose proof (skip_after s1 (proj1 A1)) as B. assert (A1' : after s (ll_skip s1)) by now apply (after_trans _ s1).
    apply (ends_andthen (left (ll_skip s1) - 1) _ s (ll_skip s1)); [apply ends_expect, A1'|]. intros s2 A2 L2. set (s3 := ll_skip (ll_modifiers text (ll_skip s2))).
    assert (A3 : after s2 s3).
    { pose proof (skip_after s2 (proj1 A2)) as B1. apply (after_trans _ _ _ B1). unfold s3. assert (B2 : after (ll_skip s2) (ll_modifiers text (ll_skip s2))).
      { unfold ll_modifiers. cbv zeta. pose proof (bump_skips_after (fun s => negb (at_storage text s)) _ (proj1 B1)) as C. destruct (ps_not_at_end _); [|exact C]. apply (after_trans _ _ _ C). apply bump_after, C. }
      apply (after_trans _ _ _ B2). apply skip_after, B2. }
    set (s4 := ll_loop _ ll_bump s3). assert (A4 : after s3 s4) by apply bumps_after, A3. assert (A : after s s3) by (apply (after_trans _ s2); [now apply (after_trans _ (ll_skip s1)) | exact A3]).
    destruct (finish_after s3 s4 (checkpoint s3) LvIdentifier (proj1 A3) A4 eq_refl) as (s5 & E5 & A5 & L5 & _). unfold andthen. rewrite E5. apply ends_finish; [exact I | now apply (after_trans _ s3) | reflexivity|].
    destruct B as (_ & _ & B). destruct A3 as (_ & _ & A3). destruct A4 as (_ & _ & A4). lia.
  Qed.

  Lemma parameters_ends : forall fuel s, Inv s -> left s < fuel -> ends (left s) s (ll_parameters fuel s).
  Proof.
    induction fuel as [| f IH]; intros s I L; [lia|]. cbn [ll_parameters]. destruct (ps_not_at_end s && negb (at_kind s LvRParen)) eqn:E; [|apply ends_true; [now apply after_refl | lia]]. apply andb_true_iff in E. destruct E as [E1 E2].
    unfold andthen at 1, ll_parameter. cbv beta zeta. set (go := fun s => negb (at_kind s LvComma) && negb (at_kind s LvRParen)). set (s1 := ll_loop go ll_bump s). assert (A1 : after s s1) by now apply bumps_after.
    destruct (finish_after s s1 (checkpoint s) LvParameter I A1 eq_refl) as (s2 & E2' & A2 & L2 & _). unfold andthen at 1. rewrite E2'. cbv beta iota. set (s3 := if at_kind s2 LvComma then ll_skip (ll_bump s2) else s2).
    assert (A3 : after s s3) by (unfold s3; destruct (at_kind s2 LvComma); [apply (after_trans _ _ _ A2); apply bump_skip_after, A2 | exact A2]).
    assert (L3 : left s3 < left s).
    { destruct (go s) eqn:G; [pose proof (bumps_take go s I E1 G) as H; fold s1 in H; assert (left s3 <= left s2) by (unfold s3; destruct (at_kind s2 LvComma); [apply (bump_skip_after s2 (proj1 A2)) | lia]); lia|].
      unfold go in G. rewrite E2, andb_true_r in G. apply negb_false_iff in G.
      assert (S1 : s1 = s). { unfold s1, ll_loop. destruct (length (ps_toks s) - ps_index s); [reflexivity|]. cbn [ll_while]. unfold go. rewrite G. cbn [negb andb]. now rewrite andb_false_r. }
      assert (K : at_kind s2 LvComma = true).
      { rewrite S1 in E2'. unfold ll_finish in E2'. destruct (finish_at s (checkpoint s) LvParameter) as [[it x]|] eqn:F; [|discriminate]. injection E2' as ->. unfold finish_at in F. destruct (_ <? _); [discriminate|]. destruct (new_node _ _); [|discriminate]. injection F as _ <-. exact G. }
      unfold s3. rewrite K. destruct (bump_after s2 (proj1 A2)) as [B Bl]. specialize (Bl (at_not_end s2 _ (proj1 A2) K)). destruct (skip_after _ (proj1 B)) as (_ & _ & C). rewrite S1 in L2. lia. }
    apply (ends_later _ s s3); [exact A3|]. apply (ends_weaken (left s3)); [lia|]. apply IH; [apply A3 | lia].
  Qed.

  (** The block that is open began in an earlier state *)
  Lemma body_ends s0 : Inv s0 -> forall fuel block sb s, Inv s -> after s0 sb -> after sb s -> snd (fst block) = length (ps_sink sb) -> left s < fuel ->
    exists block' sb' s', ll_body fuel block s = Some (block', s') /\ after s0 sb' /\ after sb' s' /\ snd (fst block') = length (ps_sink sb').
  Proof.
    intros I0. induction fuel as [| f IH]; intros block sb s I A0 Ab Eb L; [lia|]. cbn [ll_body]. destruct (ps_not_at_end s && negb (at_kind s LvRBrace)) eqn:E; [|exists block, sb, s; now repeat split; try apply A0; try apply Ab]. apply andb_true_iff in E. destruct E as [E1 E2]. cbv zeta.
    destruct (at_kind s LvKeyword && match nth_error (ps_toks s) (S (ps_index s)) with Some t => tk_kind t =? LvColon | None => false end) eqn:Lb.
    - assert (X : exists s1, (if snd block then ll_finish (fst block) LvBlock s else Some (true, s)) = Some (true, s1) /\ after s0 s1 /\ left s1 = left s /\ ps_not_at_end s1 = true).
      { destruct (snd block); [|exists s; split; [reflexivity|]; split; [now apply (after_trans _ sb) | now split]]. destruct (finish_after sb s (fst block) LvBlock (proj1 A0) Ab Eb) as (s1 & Ef & A1 & L1 & _). exists s1. split; [exact Ef|]. split; [now apply (after_trans _ sb)|]. split; [exact L1|].
        destruct (proj1 A1) as (r1 & n1 & u1 & k1 & V1 & _). destruct I as (r & n & u & k & V & _). rewrite (left_sees _ _ _ V), (left_sees _ _ _ V1) in L1. rewrite (sees_end _ _ _ _ V) in E1. rewrite (sees_end _ _ _ _ V1). destruct r1, r; try discriminate; reflexivity. }
      destruct X as (s1 & -> & A1 & L1 & N1). destruct (bump_after s1 (proj1 A1)) as [B1 Bl]. specialize (Bl N1). pose proof (bump_skip_after _ (proj1 B1)) as B2. assert (B3 : after s1 (ll_skip (ll_bump (ll_bump s1)))) by now apply (after_trans _ (ll_bump s1)).
      destruct (IH (checkpoint s1, true) s1 _ (proj1 B3) A1 B3 eq_refl) as (block' & sb' & s' & Eo & R1 & R2 & R3); [destruct B2 as (_ & _ & B2); lia|]. exists block', sb', s'. now split.
    - destruct (at_kind s LvLocalVar || at_kind s LvKeyword) eqn:K.
      + set (go := fun s => negb (at_kind s LvNewline) && negb (at_kind s LvRBrace)). set (s1 := ll_loop go ll_bump s). assert (A1 : after s s1) by now apply bumps_after.
        assert (G : go s = true).
        { unfold go. rewrite E2, andb_true_r. apply negb_true_iff. destruct I as (r & n & u & k & V & _). rewrite !(sees_at _ _ _ _ _ V) in *. destruct r as [| t r]; [reflexivity|]. destruct (Nat.eqb_spec (tk_kind t) LvNewline) as [Et |]; [|reflexivity]. rewrite Et in K. discriminate. }
        pose proof (bumps_take go s I E1 G) as Lt. fold s1 in Lt. destruct (finish_after s s1 (checkpoint s) LvInstruction I A1 eq_refl) as (s2 & -> & A2 & L2 & _).
        pose proof (skip_after s2 (proj1 A2)) as A3. assert (A4 : after s (ll_skip s2)) by now apply (after_trans _ s2). assert (L4 : left (ll_skip s2) < f) by (destruct A3 as (_ & _ & A3); lia).
        destruct (snd block).
        * destruct (IH block sb (ll_skip s2) (proj1 A4) A0) as (block' & sb' & s' & Eo & R1 & R2 & R3); [now apply (after_trans _ s) | exact Eb | exact L4|]. exists block', sb', s'. now split.
        * destruct (IH (checkpoint s, true) s (ll_skip s2) (proj1 A4)) as (block' & sb' & s' & Eo & R1 & R2 & R3); [now apply (after_trans _ sb) | exact A4 | reflexivity | exact L4|]. exists block', sb', s'. now split.
      + destruct (bump_after s I) as [B Bl]. specialize (Bl E1). pose proof (bump_skip_after s I) as B2. destruct (IH block sb (ll_skip (ll_bump s)) (proj1 B2) A0) as (block' & sb' & s' & Eo & R1 & R2 & R3); [now apply (after_trans _ s) | exact Eb | destruct (skip_after _ (proj1 B)) as (_ & _ & C); lia|]. exists block', sb', s'. now split.
  Qed.

  Lemma toks_same s : Inv s -> length (ps_toks s) = length toks.
  Proof. intros (r & n & u & k & (T & _) & _). now rewrite T. Qed.
  Lemma left_small s : Inv s -> left s < S (length (ps_toks s)).
  Proof. intros I. rewrite (toks_same s I). unfold left. lia. Qed.

  Lemma function_ends s : Inv s -> ends (left s - 1) s (ll_function s).
  Proof.
    intros I. unfold ll_function. cbv zeta. apply (ends_andthen (left s - 1) _ s s); [now apply ends_expect|]. intros s1 A1 L1. pose proof (skip_after s1 (proj1 A1)) as A2. set (s2 := ll_skip s1) in *.
    pose proof (bump_skips_after (fun s => negb (at_kind s LvGlobalVar)) s2 (proj1 A2)) as A3. set (s3 := ll_loop _ _ s2) in *. assert (As2 : after s s2) by now apply (after_trans _ s1).
    apply (ends_andthen (left s3) _ s s2). { apply ends_finish; [apply A2 | exact A3 | reflexivity | lia]. }
    intros s4 A4 _. apply (ends_andthen (left s4 - 1) _ s s4); [apply ends_expect, A4|]. intros s5 A5 _. assert (As5 : after s2 (ll_skip s5)) by (apply (after_trans _ s4); [exact A4|]; apply (after_trans _ s5); [exact A5 | apply skip_after, A5]).
    assert (L5 : left (ll_skip s5) <= left s - 1) by (destruct As5 as (_ & _ & ?); destruct A2 as (_ & _ & ?); lia). apply (after_trans _ _ _ As2) in As5.
    clear s1 A1 L1 s2 A2 s3 A3 As2 s4 A4 A5. set (s6 := ll_skip s5) in *. apply (ends_andthen (left s6) _ s s6).
    - destruct (at_kind s6 LvLParen); [|apply ends_true; [apply after_refl, As5 | lia]]. cbv zeta. destruct (bump_after s6 (proj1 As5)) as [B _]. apply (ends_andthen (left (ll_bump s6)) _ s6 (ll_bump s6)).
      { apply parameters_ends; [apply B | apply left_small, B]. }
      intros s7 A7 _. apply (ends_andthen (left s7 - 1) _ s6 s7); [apply ends_expect, A7|]. intros s8 A8 _. assert (A68 : after s6 s8) by (apply (after_trans _ (ll_bump s6)); [exact B | now apply (after_trans _ s7)]). apply ends_finish; [apply As5 | exact A68 | reflexivity | apply A68].
    - intros s7 A7 _. pose proof (skip_after s7 (proj1 A7)) as A8. set (s8 := ll_skip s7) in *. assert (As8 : after s6 s8) by now apply (after_trans _ s7). assert (L8 : left s8 <= left s - 1) by (destruct As8 as (_ & _ & ?); lia). apply (after_trans _ _ _ As5) in As8. apply (ends_andthen (left s8) _ s s8).
      + destruct (at_kind s8 LvLBrace); [|apply ends_true; [apply after_refl, As8 | lia]]. cbv zeta. pose proof (bump_skip_after s8 (proj1 As8)) as B. set (s9 := ll_skip (ll_bump s8)) in *.
        destruct (body_ends s9 (proj1 B) (S (length (ps_toks s8))) (checkpoint s9, false) s9 s9 (proj1 B) (after_refl _ (proj1 B)) (after_refl _ (proj1 B)) eq_refl) as (block & sb & sx & -> & R1 & R2 & R3).
        { rewrite (toks_same _ (proj1 As8)). unfold left. lia. }
        apply (ends_andthen (left sx) _ _ sb).
        * destruct (snd block); [apply ends_finish; [apply R1 | exact R2 | exact R3 | lia] | apply ends_true; [exact R2 | lia]].
        * intros sy Ay _. assert (A8y : after s8 sy) by (apply (after_trans _ s9); [exact B|]; now apply (after_trans _ sb)). apply (ends_later _ s8 sy); [exact A8y|]. apply (ends_weaken (left sy - 1)); [destruct A8y as (_ & _ & ?); lia | apply ends_expect, Ay].
      + intros s9 A9 L9. apply ends_finish; [exact I | now apply (after_trans _ s8) | reflexivity | lia].
  Qed.

  (** One item ends, and takes a token unless it is an error *)
  Lemma item_ends s : Inv s -> ps_not_at_end s = true -> ends (left s - 1) s (ll_item text s).
  Proof.
    intros I Ne. unfold ll_item. cbv zeta. pose proof (skip_after s I) as A1. set (s1 := ll_skip s) in *. destruct (ps_not_at_end s1) eqn:N1; cbn [negb].
    2: { apply ends_true; [exact A1|]. destruct A1 as ((r1 & n1 & u1 & k1 & V1 & _) & _). rewrite (left_sees _ _ _ V1). rewrite (sees_end _ _ _ _ V1) in N1. destruct r1; [cbn; lia | discriminate]. }
    pose proof (skip_stops s I N1) as G. fold s1 in G. apply (ends_andthen (left s1 - 1) _ s s1).
    - destruct (at_kind s1 LvGlobalVar) eqn:K; [apply global_ends, A1|]. destruct (at_word text s1 (lit "define")) eqn:W; [apply function_ends, A1|].
      destruct (proj1 A1) as (r1 & n1 & u1 & k1 & V1 & Es & Th & Y & Hd & Er). pose proof (sees_current _ _ _ _ V1) as C. rewrite (sees_end _ _ _ _ V1) in N1. destruct r1 as [| t r1]; [discriminate|]. cbn [hd_error] in C.
      destruct (drop_after s1 t (proj1 A1) C) as [A L]; [|apply ends_true; [exact A | lia]]. unfold lost, stray. unfold at_gap in G. unfold at_word, ll_word in W. rewrite !(sees_at _ _ _ _ _ V1) in *. rewrite C in W. split.
      + intros H. cbn [In] in H. apply orb_false_iff in G. destruct G as [G G3]. apply orb_false_iff in G. destruct G as [G1 G2]. apply Nat.eqb_neq in G1, G2, G3, K. destruct H as [H | [H | [H | [H | []]]]]; congruence.
      + intros Ek E. rewrite Ek, E in W. vm_compute in W. discriminate.
    - intros s2 A2 L2. apply ends_finish; [exact I | now apply (after_trans _ s1) | reflexivity|]. destruct A1 as (_ & _ & L1). lia.
  Qed.
  Lemma items_ends : forall fuel s, Inv s -> left s < fuel -> ends 0 s (ll_items text fuel s).
  Proof.
    induction fuel as [| f IH]; intros s I L; [lia|]. cbn [ll_items]. destruct (ps_not_at_end s) eqn:E.
    - apply (ends_andthen (left s - 1) _ s s); [now apply item_ends|]. intros s1 A1 L1. apply (ends_later _ s s1); [exact A1|]. apply IH; [apply A1|].
      assert (0 < left s). { destruct I as (r & n & u & k & V & _). rewrite (left_sees _ _ _ V). rewrite (sees_end _ _ _ _ V) in E. destruct r; [discriminate | cbn; lia]. } lia.
    - apply ends_true; [now apply after_refl|]. destruct I as (r & n & u & k & V & _). rewrite (left_sees _ _ _ V). rewrite (sees_end _ _ _ _ V) in E. destruct r; [cbn; lia | discriminate].
  Qed.

  Lemma root_leaves : (exists root kept, ll_root text toks = Some (Some root, []) /\ thins lost (no_trivia ign toks) kept /\ yield root = map tok_yield kept) \/
    (exists e, ll_root text toks = Some (None, [e])).
  Proof.
    unfold ll_root. cbv zeta. destruct (sees_new ign toks Hfit (length text) []) as [V E]. set (s := ps_new ign toks (length text) []) in *.
    assert (I : Inv s). { exists (no_trivia ign toks), [], [], []. rewrite app_nil_r. split; [exact V|]. split; [reflexivity|]. split; [constructor|]. split; [reflexivity|]. split; [apply no_trivia_head | exact E]. }
    destruct (items_ends (S (length toks)) s I) as (b & s' & -> & H); [unfold left; lia|]. destruct b.
    - left. destruct H as [((rest & new & used & kept & V' & Es & Th & Y & Hd & Er) & _) L]. rewrite (left_sees _ _ _ V') in L. destruct rest; [|cbn in L; lia]. rewrite app_nil_r in Es. rewrite <- Es in Th.
      destruct (sees_finish ign toks Hfit s' [] lead new (fst (checkpoint s)) LvRoot V') as (m & s2 & F & V2 & E2). exists (gnode LvRoot new), kept.
      assert (Cp : checkpoint s = (fst (checkpoint s), length lead)) by (unfold checkpoint; cbn [fst]; f_equal; now rewrite (sink_sees _ _ _ V)). rewrite Cp, F. split; [now rewrite E2, Er|]. split; [exact Th|]. unfold gnode. now rewrite yield_node.
    - right. destruct (ps_errs s') as [| e [| e' r]]; try discriminate. now exists e.
  Qed.
End Run.

(** ** From tokens to pieces of the text *)
From Verif Require JsonAstBuildProofs.
Lemma no_trivia_split ign ts : exists w, ts = w ++ no_trivia ign ts /\ Forall (fun t => ign (tk_kind t) = true) w.
Proof. induction ts as [| t r (w & E & F)]; [exists []; now split|]. cbn [no_trivia]. destruct (ign (tk_kind t)) eqn:K; [|exists []; now split]. exists (t :: w). split; [cbn; now rewrite <- E | now constructor]. Qed.

Definition kind_of (p : piece) : nat := match fst p with Some k => k | None => 0 end.
Definition end_piece : piece := (Some LvError, []).
Definition loose (p : piece) : Prop := stray (kind_of p) (snd p).
Fixpoint yno (ps : list piece) : list piece := match ps with p :: r => if ll_ignored (kind_of p) then yno r else ps | [] => [] end.

Section Pieces.
  Variable (text : str) (cs : list Z).
  Hypothesis Et : text = encode cs.
  Hypothesis Sc : Forall is_scalar cs.

  Lemma thins_pieces : forall ps pre kept, cs = pre ++ text_of_pieces ps -> Forall (fun p => fst p <> None) ps ->
    thins (lost text) (spans (length (encode pre)) ps ++ [Token LvError (length text) (length text)]) kept ->
    exists keep, thins loose (ps ++ [end_piece]) keep /\ map tok_yield kept = flat_map piece_yield keep.
  Proof.
    induction ps as [| [k s] ps IH]; intros pre kept E F T.
    - cbn [spans app] in T. assert (L : loose end_piece) by (split; [cbn; intros [H | [H | [H | [H | []]]]]; discriminate | discriminate]). inversion T as [| x l k0 T1 | x l k0 _ T1]; subst; inversion T1; subst.
      + exists [end_piece]. split; [apply thins_all|]. cbn [map flat_map piece_yield end_piece fst snd app]. f_equal. unfold tok_yield. cbn [tk_kind tk_start tk_end]. f_equal. cbn [encode length]. lia.
      + exists []. split; [apply ThDrop; [exact L | constructor] | reflexivity].
    - apply Forall_cons_iff in F. destruct F as [F1 F2]. destruct k as [k|]; [|now destruct F1]. unfold text_of_pieces in E. cbn [flat_map snd] in E. change (flat_map snd ps) with (text_of_pieces ps) in E.
      cbn [spans app] in T. set (t := Token k (length (encode pre)) (length (encode pre) + length (encode s))) in *.
      assert (Ey : tok_yield t = (k, length (encode s))) by (unfold tok_yield, t; cbn; f_equal; lia).
      assert (Next : forall kept', thins (lost text) (spans (length (encode pre) + length (encode s)) ps ++ [Token LvError (length text) (length text)]) kept' -> exists keep, thins loose (ps ++ [end_piece]) keep /\ map tok_yield kept' = flat_map piece_yield keep).
      { intros kept' T'. apply (IH (pre ++ s)); [now rewrite <- app_assoc | exact F2|]. now rewrite encode_app, app_length. }
      inversion T as [| x l k0 T1 | x l k0 D T1]; subst x l.
      + subst kept. destruct (Next k0 T1) as (keep & A & B). exists ((Some k, s) :: keep). split; [cbn; now constructor|]. cbn [map flat_map]. now rewrite B, Ey.
      + subst k0. destruct (Next kept T1) as (keep & A & B). exists keep. split; [|exact B]. cbn [app]. apply ThDrop; [|exact A].
        assert (Tx : flat_text_in text (tk_start t) (tk_end t) = encode s) by (unfold t; cbn [tk_start tk_end]; rewrite Et, E; apply JsonAstBuildProofs.text_here; now rewrite <- E).
        unfold lost, stray in D. rewrite Tx in D. destruct D as [D1 D2]. split; [exact D1|]. intros Ek Es. apply (D2 Ek). cbn [snd] in Es. rewrite Es. reflexivity.
  Qed.
  Lemma no_trivia_pieces : forall ps pre, Forall (fun p => fst p <> None) ps -> exists w ps', ps = w ++ ps' /\ Forall (fun p => ll_ignored (kind_of p) = true) w /\
    match ps' with p :: _ => ll_ignored (kind_of p) = false | [] => True end /\
    no_trivia ll_ignored (spans (length (encode pre)) ps ++ [Token LvError (length text) (length text)]) = spans (length (encode (pre ++ text_of_pieces w))) ps' ++ [Token LvError (length text) (length text)].
  Proof.
    induction ps as [| [k s] ps IH]; intros pre F; [exists [], []; cbn; repeat split; constructor|]. apply Forall_cons_iff in F. destruct F as [F1 F2]. destruct k as [k|]; [|now destruct F1].
    cbn [spans app no_trivia tk_kind]. destruct (ll_ignored k) eqn:K.
    - destruct (IH (pre ++ s) F2) as (w & ps' & -> & Fw & H & E). rewrite encode_app, app_length in E. exists ((Some k, s) :: w), ps'. split; [reflexivity|]. split; [now constructor|]. split; [exact H|]. rewrite E. unfold text_of_pieces. cbn [flat_map snd]. now rewrite app_assoc.
    - exists [], ((Some k, s) :: ps). split; [reflexivity|]. split; [constructor|]. split; [exact K|]. cbn [text_of_pieces flat_map]. now rewrite app_nil_r.
  Qed.
End Pieces.
