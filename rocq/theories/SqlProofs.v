(** Facts about the SQL parser. *)
From Verif Require Import Base Utf8 Utf8Facts LexModel LexSpec TreeModel TreeSpec TreeProofs ParserModel ParserSpec ParserProofs JsonLangSpec LangModel LangSpec LangLexProofs LangParseProofs SqlModel SqlSpec.
From Verif Require SqlLexProofs LuaProofs.

Notation yk := (list (nat * nat)) (only parsing).
Definition ysettled (ys : list (nat * nat)) : Prop := match ys with y :: _ => sql_ign (fst y) = false | [] => True end.
Lemma ign_spec k : sql_ign k = true <-> In k [QWhitespace; QNewline; QComment; QLineComment; QBlockComment].
Proof. unfold sql_ign. rewrite existsb_exists. split; [intros (x & I & E); apply Nat.eqb_eq in E; now subst x | intros I; exists k; split; [exact I | apply Nat.eqb_refl]]. Qed.
Lemma not_ign k : sql_ign k = false <-> ~ In k [QWhitespace; QNewline; QComment; QLineComment; QBlockComment].
Proof. rewrite <- ign_spec. now destruct (sql_ign k). Qed.
Lemma thinned_refl a : thinned a a.
Proof. induction a; now constructor. Qed.
Lemma thinned_app a b c d : thinned a b -> thinned c d -> thinned (a ++ c) (b ++ d).
Proof. induction 1; intros; cbn [app]; [assumption | constructor; auto | constructor; auto]. Qed.
Lemma ynext_end ys : ysettled (ynext sql_ign ys).
Proof. exact (ynext_settled sql_ign ys). Qed.

Lemma levels_small k p : sql_level k = Some p -> p < 255.
Proof. unfold sql_level. repeat match goal with |- context [if ?b then _ else _] => destruct b end; intros E; try discriminate E; injection E as <-; lia. Qed.

Section Parse.
  Variable toks : list token.
  Hypothesis Hfit : (Z.of_nat (toklen toks) < 2 ^ 32)%Z.
  Notation sits := (sits toks).
  Notation ynext := (ynext sql_ign).
  Notation ytrivia := (ytrivia sql_ign).

  Lemma peek_sits s ys trees : sits s ys trees -> peek_kind s = option_map fst (hd_error ys).
  Proof. exact (LuaProofs.peek_sits toks s ys trees). Qed.
  Lemma sits_advance s y ys trees : sits s (y :: ys) trees -> sits (ps_advance sql_ign s) (ynext ys) (trees ++ map yleaf (ytrivia ys)) /\ ps_errs (ps_advance sql_ign s) = ps_errs s.
  Proof.
    intros (rest & V & E). destruct rest as [| t rest]; [discriminate|]. injection E as _ <-. assert (V1 : sees toks (set_index s (S (ps_index s))) rest trees).
    { destruct V as (T & I & R & K & B & W & N). rewrite toklen_cons in W. assert (I' : ps_index s < length toks). { destruct (Nat.ltb_spec (ps_index s) (length toks)); [assumption|]. rewrite skipn_all2 in R by lia. discriminate. }
      unfold sees. cbn [set_index ps_toks ps_index ps_sink ps_errs ps_inc]. split; [assumption|]. split; [lia|]. split; [|split; [assumption|]; split; [assumption|]; split; [lia | assumption]].
      destruct (nth_error toks (ps_index s)) as [x|] eqn:E; [|apply nth_error_None in E; lia]. rewrite (ParserProofs.skipn_nth _ _ _ E) in R. congruence. }
    unfold ps_advance, skip_trivia. split.
    - exists (no_trivia sql_ign rest). split; [|apply trivia_yields]. rewrite (sees_length _ _ _ _ V1). pose proof (sees_skip sql_ign toks Hfit (length rest) _ _ _ V1 (le_n _)) as V2. rewrite tokleaf_yields in V2. destruct (trivia_yields sql_ign rest) as [Q _]. now rewrite Q in V2.
    - destruct (skip_loop_push sql_ign (length (ps_toks (set_index s (S (ps_index s)))) - ps_index (set_index s (S (ps_index s)))) (set_index s (S (ps_index s)))) as (l & _ & Er & _). exact Er.
  Qed.

  (** ** Every action ends, and only counting tokens are left out *)
  Definition step_of (s : pstate) (ys : list (nat * nat)) (trees : list green) (s' : pstate) (used ys' : list (nat * nat)) (new : list green) : Prop :=
    sits s' ys' (trees ++ new) /\ ysettled ys' /\ ys = used ++ ys' /\ thinned used (flat_map yield new).
  (** [m] bounds the number of tokens to come; when [Q] the action consumes some *)
  Definition goes (m : nat) (Q : list (nat * nat) -> Prop) (a : sql_act) : Prop := forall s ys trees, sits s ys trees -> ysettled ys -> S (length ys) < m ->
    exists s' used ys' new, a s = Some s' /\ step_of s ys trees s' used ys' new /\ (Q ys -> used <> []).
  Definition last_is (s : pstate) (left : item) : Prop := exists l id, fst left = Some id /\ ps_sink s = l ++ [left].
  Definition goes_item (m : nat) (a : pstate -> option (item * pstate)) : Prop := forall s ys trees, sits s ys trees -> ysettled ys -> S (length ys) < m ->
    exists it s' used ys', a s = Some (it, s') /\ step_of s ys trees s' used ys' [snd it] /\ last_is s' it /\ (ys <> [] -> used <> []).
  Definition never (ys : list (nat * nat)) : Prop := False.
  Definition some (ys : list (nat * nat)) : Prop := ys <> [].
  Definition at_some (ks : list nat) (ys : list (nat * nat)) : Prop := exists y r, ys = y :: r /\ In (fst y) ks.

  Lemma goes_weak m (P Q : list (nat * nat) -> Prop) a : (forall ys, Q ys -> P ys) -> goes m P a -> goes m Q a.
  Proof. intros H G s ys trees S Y L. destruct (G s ys trees S Y L) as (s' & used & ys' & new & E & St & U). exists s', used, ys', new. split; [exact E|]. split; [exact St|]. intros q. apply U, H, q. Qed.
  Lemma step_refl s ys trees : sits s ys trees -> ysettled ys -> step_of s ys trees s [] ys [].
  Proof. intros S Y. split; [now rewrite app_nil_r|]. split; [exact Y|]. split; [reflexivity | constructor]. Qed.
  Lemma step_trans s ys trees s1 u1 ys1 n1 s2 u2 ys2 n2 : step_of s ys trees s1 u1 ys1 n1 -> step_of s1 ys1 (trees ++ n1) s2 u2 ys2 n2 -> step_of s ys trees s2 (u1 ++ u2) ys2 (n1 ++ n2).
  Proof. intros (_ & _ & E1 & T1) (S2 & Y2 & E2 & T2). split; [now rewrite app_assoc|]. split; [exact Y2|]. split; [now rewrite E1, E2, app_assoc|]. rewrite flat_map_app. now apply thinned_app. Qed.
  Lemma step_length s ys trees s1 u1 ys1 n1 : step_of s ys trees s1 u1 ys1 n1 -> length ys = length u1 + length ys1.
  Proof. intros (_ & _ & -> & _). apply app_length. Qed.
  Lemma goes_nop m : goes m never sql_nop.
  Proof. intros s ys trees S Y L. exists s, [], ys, []. split; [reflexivity|]. split; [now apply step_refl | intros []]. Qed.
  Lemma goes_seq m Q a b : goes m Q a -> goes m never b -> goes m Q (a ;> b).
  Proof.
    intros A B s ys trees S Y L. destruct (A s ys trees S Y L) as (s1 & u1 & ys1 & n1 & E1 & St1 & U1). pose proof (step_length _ _ _ _ _ _ _ St1) as L1. destruct (B s1 ys1 (trees ++ n1) (proj1 St1) (proj1 (proj2 St1)) ltac:(lia)) as (s2 & u2 & ys2 & n2 & E2 & St2 & _).
    exists s2, (u1 ++ u2), ys2, (n1 ++ n2). unfold sql_seq. rewrite E1. split; [exact E2|]. split; [exact (step_trans _ _ _ _ _ _ _ _ _ _ _ St1 St2)|]. intros q E. apply app_eq_nil in E. now apply (U1 q).
  Qed.
  (** progress may also come from the second action *)
  Lemma goes_seq2 m a b : goes m never a -> goes m some b -> goes m some (a ;> b).
  Proof.
    intros A B s ys trees S Y L. destruct (A s ys trees S Y L) as (s1 & u1 & ys1 & n1 & E1 & St1 & _). pose proof (step_length _ _ _ _ _ _ _ St1) as L1. destruct (B s1 ys1 (trees ++ n1) (proj1 St1) (proj1 (proj2 St1)) ltac:(lia)) as (s2 & u2 & ys2 & n2 & E2 & St2 & U2).
    exists s2, (u1 ++ u2), ys2, (n1 ++ n2). unfold sql_seq. rewrite E1. split; [exact E2|]. split; [exact (step_trans _ _ _ _ _ _ _ _ _ _ _ St1 St2)|]. intros q E. apply app_eq_nil in E. destruct E as [E1' E2']. destruct St1 as (_ & _ & Q & _). subst u1. cbn in Q. subst ys1. now apply (U2 q).
  Qed.
  Lemma bump_step s y ys trees : sits s (y :: ys) trees -> step_of s (y :: ys) trees (bump sql_ign s) (y :: ytrivia ys) (ynext ys) (yleaf y :: map yleaf (ytrivia ys)).
  Proof.
    intros S. split; [exact (proj1 (sits_bump sql_ign toks Hfit s y ys trees S))|]. split; [apply ynext_end|]. split; [cbn [app]; now rewrite ytrivia_next|]. cbn [flat_map yield yleaf app]. rewrite LuaProofs.yield_yleaf. destruct y. apply thinned_refl.
  Qed.
  Lemma bump_none s trees : sits s [] trees -> bump sql_ign s = s.
  Proof. intros S. pose proof (peek_sits s [] trees S) as P. unfold peek_kind in P. unfold bump. destruct (ps_current s); [discriminate | reflexivity]. Qed.
  Lemma goes_bump m : goes m some sql_bump.
  Proof.
    intros s [| y ys] trees S Y L.
    - exists s, [], [], []. unfold sql_bump. rewrite (bump_none s trees S). split; [reflexivity|]. split; [now apply step_refl | intros N; now destruct N].
    - exists (bump sql_ign s), (y :: ytrivia ys), (ynext ys), (yleaf y :: map yleaf (ytrivia ys)). split; [reflexivity|]. split; [now apply bump_step | discriminate].
  Qed.
  Lemma goes_want m k : goes m (at_some [k]) (sql_want k).
  Proof.
    intros s ys trees S Y L. unfold sql_want, expect, eat. destruct (at_kind s k) eqn:A; cbn [snd].
    - destruct ys as [| y ys]; [rewrite (sits_at _ _ _ _ _ S) in A; discriminate|]. eexists _, _, _, _. split; [reflexivity|]. split; [exact (bump_step s y ys trees S) | discriminate].
    - exists (push_error s 0 (current_offset s)), [], ys, []. split; [reflexivity|]. split; [exact (step_refl _ ys trees (sits_error toks s ys trees _ _ S) Y)|]. intros (y & r & -> & [E | []]). rewrite (sits_at _ _ _ _ _ S), <- E, Nat.eqb_refl in A. discriminate.
  Qed.
  Lemma goes_may m k : goes m (at_some [k]) (sql_may k).
  Proof.
    intros s ys trees S Y L. unfold sql_may, eat. destruct (at_kind s k) eqn:A; cbn [snd].
    - destruct ys as [| y ys]; [rewrite (sits_at _ _ _ _ _ S) in A; discriminate|]. eexists _, _, _, _. split; [reflexivity|]. split; [exact (bump_step s y ys trees S) | discriminate].
    - exists s, [], ys, []. split; [reflexivity|]. split; [exact (step_refl _ ys trees S Y)|]. intros (y & r & -> & [E | []]). rewrite (sits_at _ _ _ _ _ S), <- E, Nat.eqb_refl in A. discriminate.
  Qed.
  Lemma goes_if m k a b : goes m never a -> goes m never b -> goes m never (sql_if k a b).
  Proof.
    intros A B s ys trees S Y L. unfold sql_if, eat. destruct (at_kind s k) eqn:At; [|exact (B s ys trees S Y L)]. destruct ys as [| y ys]; [rewrite (sits_at _ _ _ _ _ S) in At; discriminate|]. pose proof (bump_step s y ys trees S) as St1. pose proof (step_length _ _ _ _ _ _ _ St1) as L1.
    destruct (A _ _ _ (proj1 St1) (proj1 (proj2 St1)) ltac:(lia)) as (s2 & u2 & ys2 & n2 & E2 & St2 & _). eexists s2, _, ys2, _. split; [exact E2|]. split; [exact (step_trans _ _ _ _ _ _ _ _ _ _ _ St1 St2) | intros []].
  Qed.
  Lemma goes_while m Q c a : goes m Q a -> (forall s ys trees, sits s ys trees -> c s = true -> Q ys /\ ys <> []) -> forall f s ys trees, sits s ys trees -> ysettled ys -> S (length ys) < m -> length ys < f ->
    exists s' used ys' new, sql_while f c a s = Some s' /\ step_of s ys trees s' used ys' new /\ c s' = false /\ (c s = true -> used <> []).
  Proof.
    intros A H. induction f as [| f IH]; intros s ys trees S Y L Lf; [lia|]. cbn [sql_while]. destruct (c s) eqn:C.
    - destruct (H s ys trees S C) as [q _]. destruct (A s ys trees S Y L) as (s1 & u1 & ys1 & n1 & E1 & St1 & U1). specialize (U1 q). pose proof (step_length _ _ _ _ _ _ _ St1) as L1. destruct u1 as [| x u1]; [contradiction|]. cbn [length] in L1. destruct (IH s1 ys1 (trees ++ n1) (proj1 St1) (proj1 (proj2 St1)) ltac:(lia) ltac:(lia)) as (s2 & u2 & ys2 & n2 & E2 & St2 & C2 & _).
      eexists s2, _, ys2, _. unfold sql_seq. rewrite E1. split; [exact E2|]. split; [exact (step_trans _ _ _ _ _ _ _ _ _ _ _ St1 St2)|]. split; [exact C2 | discriminate].
    - exists s, [], ys, []. split; [reflexivity|]. split; [now apply step_refl|]. split; [exact C | discriminate].
  Qed.
  Lemma goes_loop m Q c a : goes m Q a -> (forall s ys trees, sits s ys trees -> c s = true -> Q ys /\ ys <> []) -> goes m never (sql_while m c a).
  Proof. intros A H s ys trees S Y L. destruct (goes_while m Q c a A H m s ys trees S Y L ltac:(lia)) as (s' & u & ys' & new & E & St & _). exists s', u, ys', new. split; [exact E|]. split; [exact St | intros []]. Qed.
  Lemma more_some stops s ys trees : sits s ys trees -> sql_more stops s = true -> ys <> [].
  Proof. intros S E. unfold sql_more in E. rewrite (sits_end _ _ _ _ S) in E. now destruct ys. Qed.
  Lemma goes_commas m stops a : goes m some a -> forall f s ys trees, sits s ys trees -> ysettled ys -> S (length ys) < m -> length ys < f ->
    exists s' used ys' new, sql_commas f stops a s = Some s' /\ step_of s ys trees s' used ys' new.
  Proof.
    intros A. induction f as [| f IH]; intros s ys trees S Y L Lf; [lia|]. cbn [sql_commas]. destruct (sql_more stops s) eqn:C.
    - pose proof (more_some _ _ _ _ S C) as N. destruct (A s ys trees S Y L) as (s1 & u1 & ys1 & n1 & E1 & St1 & U1). specialize (U1 N). pose proof (step_length _ _ _ _ _ _ _ St1) as L1. destruct u1 as [| x u1]; [contradiction|]. cbn [length] in L1. unfold sql_seq. rewrite E1. unfold sql_if, eat. pose proof (proj1 St1) as S1. destruct (at_kind s1 QComma) eqn:At.
      + destruct ys1 as [| y ys1]; [rewrite (sits_at _ _ _ _ _ S1) in At; discriminate|]. pose proof (bump_step s1 y ys1 _ S1) as St2. pose proof (step_length _ _ _ _ _ _ _ St2) as L2. destruct (IH _ _ _ (proj1 St2) (proj1 (proj2 St2)) ltac:(lia) ltac:(lia)) as (s3 & u3 & ys3 & n3 & E3 & St3).
        eexists s3, _, ys3, _. split; [exact E3|]. exact (step_trans _ _ _ _ _ _ _ _ _ _ _ (step_trans _ _ _ _ _ _ _ _ _ _ _ St1 St2) ltac:(rewrite app_assoc; exact St3)).
      + eexists s1, _, ys1, _. split; [reflexivity | exact St1].
    - exists s, [], ys, []. split; [reflexivity | now apply step_refl].
  Qed.
  Lemma goes_list m stops a : goes m some a -> goes m never (sql_commas m stops a).
  Proof. intros A s ys trees S Y L. destruct (goes_commas m stops a A m s ys trees S Y L ltac:(lia)) as (s' & u & ys' & new & E & St). exists s', u, ys', new. split; [exact E|]. split; [exact St | intros []]. Qed.
  Lemma until_loop k : forall n s ys trees, sits s ys trees -> ysettled ys -> length ys <= n -> exists used ys' new, step_of s ys trees (advance_loop sql_ign (fun s => at_kind s k) n s) used ys' new /\ (ys' = [] \/ exists y r, ys' = y :: r /\ fst y = k) /\
    ps_errs (advance_loop sql_ign (fun s => at_kind s k) n s) = ps_errs s.
  Proof.
    induction n as [| n IH]; intros s ys trees S Y L.
    - destruct ys; [|cbn in L; lia]. exists [], [], []. split; [now apply step_refl|]. split; [now left | reflexivity].
    - cbn [advance_loop]. rewrite (sits_end _ _ _ _ S), (sits_at _ _ _ _ _ S). destruct ys as [| y ys]; [exists [], [], []; split; [now apply step_refl|]; split; [now left | reflexivity]|]. cbn [andb]. destruct (Nat.eqb_spec (fst y) k) as [E | N]; cbn [negb].
      + exists [], (y :: ys), []. split; [now apply step_refl|]. split; [right; now exists y, ys | reflexivity].
      + destruct (sits_advance s y ys trees S) as [S1 Er]. pose proof (ynext_length sql_ign ys) as Ln. cbn [length] in L. destruct (IH _ _ _ S1 (ynext_end ys) ltac:(lia)) as (u & ys' & new & St & H & Er'). exists ((y :: ytrivia ys) ++ u), ys', (map yleaf (ytrivia ys) ++ new). split; [|split; [exact H | congruence]].
        refine (step_trans s (y :: ys) trees _ (y :: ytrivia ys) (ynext ys) (map yleaf (ytrivia ys)) _ u ys' new _ St). split; [exact S1|]. split; [apply ynext_end|]. split; [cbn [app]; now rewrite ytrivia_next|]. rewrite LuaProofs.yield_yleaf. constructor; [apply not_ign; exact Y | apply thinned_refl].
  Qed.
  Lemma until_step k s ys trees : sits s ys trees -> ysettled ys -> exists used ys' new, step_of s ys trees (advance_until sql_ign k s) used ys' new /\ (ys' = [] \/ exists y r, ys' = y :: r /\ fst y = k) /\ ps_errs (advance_until sql_ign k s) = ps_errs s.
  Proof.
    intros S Y. unfold advance_until. apply until_loop; [exact S | exact Y|]. destruct S as (rest & V & <-). rewrite (sees_length _ _ _ _ V), map_length. lia.
  Qed.
  Lemma goes_until m k : goes m never (sql_until k).
  Proof. intros s ys trees S Y L. destruct (until_step k s ys trees S Y) as (u & ys' & new & St & _). eexists _, u, ys', new. split; [reflexivity|]. split; [exact St | intros []]. Qed.
  Lemma goes_rest m : goes m some (sql_until QSemicolon ;> sql_may QSemicolon).
  Proof.
    intros s ys trees S Y L. destruct (until_step QSemicolon s ys trees S Y) as (u & ys' & new & St & H & _). unfold sql_seq, sql_until. pose proof (step_length _ _ _ _ _ _ _ St) as L1. destruct (goes_may m QSemicolon _ ys' _ (proj1 St) (proj1 (proj2 St)) ltac:(lia)) as (s2 & u2 & ys2 & n2 & E2 & St2 & U2).
    eexists s2, _, ys2, _. split; [exact E2|]. split; [exact (step_trans _ _ _ _ _ _ _ _ _ _ _ St St2)|]. intros N E. apply app_eq_nil in E. destruct E as [-> E]. destruct St as (_ & _ & Q & _). cbn in Q. subst ys'. destruct H as [-> | (y & r & -> & Ek)]; [now apply N|]. apply U2; [|exact E]. exists y, r. split; [reflexivity | now left].
  Qed.
  Lemma goes_item_node m kind a : goes m some a -> goes_item m (sql_node_at checkpoint kind a).
  Proof.
    intros A s ys trees S Y L. destruct (A s ys trees S Y L) as (s1 & u1 & ys1 & n1 & E1 & (S1 & Y1 & Q1 & T1) & U1). unfold sql_node_at. rewrite E1. unfold checkpoint. rewrite (sits_sink _ _ _ _ S). destruct (sits_finish sql_ign toks Hfit s1 ys1 trees n1 (ps_index s) kind S1) as (i & s2 & F & S2 & _). rewrite F. exists (Some i, gnode kind n1), s2, u1, ys1. split; [reflexivity|]. split; [|split; [|exact U1]].
    - split; [exact S2|]. split; [exact Y1|]. split; [exact Q1|]. cbn [snd flat_map]. rewrite app_nil_r. exact T1.
    - destruct (LuaProofs.finish_last _ _ _ _ _ F) as [Lk (id & Id)]. eexists _, id. split; [exact Id | exact Lk].
  Qed.
  Lemma goes_node m Q kind a : goes m Q a -> goes m Q (sql_node kind a).
  Proof.
    intros A s ys trees S Y L. destruct (A s ys trees S Y L) as (s1 & u1 & ys1 & n1 & E1 & (S1 & Y1 & Q1 & T1) & U1). unfold sql_node, sql_node_at. rewrite E1. unfold checkpoint. rewrite (sits_sink _ _ _ _ S). destruct (sits_finish sql_ign toks Hfit s1 ys1 trees n1 (ps_index s) kind S1) as (i & s2 & F & S2 & _). rewrite F. exists s2, u1, ys1, [gnode kind n1]. split; [reflexivity|]. split; [|exact U1].
    split; [exact S2|]. split; [exact Y1|]. split; [exact Q1|]. cbn [flat_map]. rewrite app_nil_r. exact T1.
  Qed.

  Lemma before_last s ys trees left id : sits s ys (trees ++ [snd left]) -> last_is s left -> fst left = Some id -> checkpoint_before s id = (0, length trees).
    Proof.
      intros S (l & i & Id & L) Q. assert (i = id) as -> by congruence. unfold checkpoint_before. rewrite L, (LuaProofs.find_last_end id l left Q). pose proof (sits_sink _ _ _ _ S) as X. rewrite L, !app_length in X. cbn [length] in X. cbn. f_equal. lia.
    Qed.
    Lemma current_settled s ys trees : sits s ys trees -> ysettled ys -> match ps_current s with Some t => sql_ign (tk_kind t) | None => false end = false.
    Proof. intros S Y. pose proof (peek_sits _ _ _ S) as P. unfold peek_kind in P. destruct (ps_current s) as [t|]; [|reflexivity]. destruct ys as [| y ys]; [discriminate|]. cbn in P. injection P as ->. exact Y. Qed.
  Section Grammar.
    Variable (expr : nat -> sql_act) (f : nat).
    Hypothesis He : forall min, goes f some (expr min).
    Lemma weaken Q a : goes f Q a -> goes f never a.
    Proof. apply goes_weak. intros ys []. Qed.
    Lemma goes_expr min : goes f never (expr min).
    Proof. apply (weaken some), He. Qed.
    Ltac go := first [ apply goes_nop | apply goes_expr | exact (weaken _ _ (goes_want f _)) | exact (weaken _ _ (goes_may f _)) | exact (weaken _ _ (goes_bump f)) | apply goes_if; [go|go] | apply goes_seq; [go|go] | apply goes_node; go | apply goes_until | assumption ].
    Lemma primary_goes : goes_item (S f) (sql_primary expr).
    Proof.
      intros s ys trees S Y L. unfold sql_primary. destruct (at_kind s QIdentifier_); [exact (goes_item_node (1 + f) NIdentifier sql_bump (goes_bump _) s ys trees S Y L)|]. destruct (existsb (at_kind s) _); [exact (goes_item_node (1 + f) NExpression sql_bump (goes_bump _) s ys trees S Y L)|]. destruct (at_kind s QLeftParen) eqn:At; [|exact (goes_item_node (1 + f) NErrorNode sql_bump (goes_bump _) s ys trees S Y L)].
      destruct ys as [| y ys]; [rewrite (sits_at _ _ _ _ _ S) in At; discriminate|]. pose proof (bump_step s y ys trees S) as St1. pose proof (step_length _ _ _ _ _ _ _ St1) as L1. cbn [length] in L, L1. assert (G : goes f never (expr 0 ;> sql_want QRightParen)) by go. destruct (G _ _ _ (proj1 St1) (proj1 (proj2 St1)) ltac:(lia)) as (s2 & u2 & ys2 & n2 & E2 & St2 & _). pose proof (step_trans _ _ _ _ _ _ _ _ _ _ _ St1 St2) as (S3 & Y3 & Q3 & T3).
      unfold sql_node_at. change ((sql_bump ;> expr 0 ;> sql_want QRightParen) s) with ((expr 0 ;> sql_want QRightParen) (bump sql_ign s)). rewrite E2. unfold checkpoint. rewrite (sits_sink _ _ _ _ S). destruct (sits_finish sql_ign toks Hfit s2 ys2 trees _ (ps_index s) NExpression S3) as (i & s3 & F & S4 & _). rewrite F. eexists _, s3, ((y :: ytrivia ys) ++ u2), ys2. split; [reflexivity|]. split; [|split; [|discriminate]].
      - split; [exact S4|]. split; [exact Y3|]. split; [exact Q3|]. cbn [snd flat_map gnode yield]. rewrite app_nil_r. exact T3.
      - destruct (LuaProofs.finish_last _ _ _ _ _ F) as [Lk (id & Id)]. eexists _, id. split; [exact Id | exact Lk].
    Qed.
    Lemma infix_goes left min s ys trees : sits s ys (trees ++ [snd left]) -> ysettled ys -> last_is s left -> S (length ys) < S f ->
      sql_infix expr left min s = Some (None, s) \/
      exists it s' used ys' new, sql_infix expr left min s = Some (Some it, s') /\ sits s' ys' (trees ++ [snd it]) /\ last_is s' it /\ ysettled ys' /\ ys = used ++ ys' /\ used <> [] /\ yield (snd it) = yield (snd left) ++ flat_map yield new /\ thinned used (flat_map yield new).
    Proof.
      intros S Y La L. unfold sql_infix. rewrite (peek_sits _ _ _ S). destruct ys as [| y ys]; [now left|]. cbn [hd_error option_map]. destruct (sql_level (fst y)) as [p|] eqn:Lv; [|now left]. destruct (p <? min); [now left|]. pose proof La as (l & id & Id & Lk). rewrite Id. unfold next_prec. rewrite (proj2 (Nat.ltb_lt p 255) (levels_small _ _ Lv)). right.
      assert (At : at_kind s (fst y) = true) by (rewrite (sits_at _ _ _ _ _ S); apply Nat.eqb_refl). pose proof (bump_step s y ys _ S) as St1. pose proof (step_length _ _ _ _ _ _ _ St1) as L1. cbn [length] in L, L1. destruct (He (1 + p) _ _ _ (proj1 St1) (proj1 (proj2 St1)) ltac:(lia)) as (s2 & u2 & ys2 & n2 & E2 & St2 & _). pose proof (step_trans _ _ _ _ _ _ _ _ _ _ _ St1 St2) as (S3 & Y3 & Q3 & T3).
      unfold sql_node_at, sql_seq, sql_want, expect, eat. rewrite At. cbn [snd]. cbn [Nat.add] in E2. rewrite E2, (before_last s _ trees left id S La Id). rewrite <- app_assoc in S3. destruct (sits_finish sql_ign toks Hfit s2 ys2 trees _ 0 (sql_into QExpression) S3) as (i & s3 & F & S4 & _). rewrite F. eexists _, s3, ((y :: ytrivia ys) ++ u2), ys2, _. split; [reflexivity|]. split; [exact S4|]. split; [destruct (LuaProofs.finish_last _ _ _ _ _ F) as [Lk' (id' & Id')]; eexists _, id'; split; [exact Id' | exact Lk']|].
      split; [exact Y3|]. split; [exact Q3|]. split; [discriminate|]. split; [|exact T3]. cbn [snd gnode yield]. rewrite !flat_map_app. cbn [flat_map]. rewrite app_nil_r. reflexivity.
    Qed.
    Lemma loop_goes : forall g left min s ys trees, sits s ys (trees ++ [snd left]) -> ysettled ys -> last_is s left -> S (length ys) < S f -> length ys < g ->
      exists s' it used ys' new, sql_pratt_loop expr g left min s = Some s' /\ sits s' ys' (trees ++ [it]) /\ ysettled ys' /\ ys = used ++ ys' /\ yield it = yield (snd left) ++ flat_map yield new /\ thinned used (flat_map yield new).
    Proof.
      induction g as [| g IH]; intros left min s ys trees S Y La L Lg; [lia|]. cbn [sql_pratt_loop]. destruct (infix_goes left min s ys trees S Y La L) as [-> | (it & s1 & u & ys1 & new & -> & S1 & La1 & Y1 & Q1 & N1 & E1 & T1)].
      - exists s, (snd left), [], ys, []. split; [reflexivity|]. split; [exact S|]. split; [exact Y|]. split; [reflexivity|]. split; [cbn; now rewrite app_nil_r | constructor].
      - assert (length ys = length u + length ys1) by (rewrite Q1; apply app_length). destruct u as [| x u]; [contradiction|]. cbn [length] in *. destruct (IH it min s1 ys1 trees S1 Y1 La1 ltac:(lia) ltac:(lia)) as (s2 & it2 & u2 & ys2 & n2 & E2 & S2 & Y2 & Q2 & Yi & T2).
        exists s2, it2, ((x :: u) ++ u2), ys2, (new ++ n2). split; [exact E2|]. split; [exact S2|]. split; [exact Y2|]. split; [now rewrite Q1, Q2, app_assoc|]. split; [now rewrite Yi, E1, flat_map_app, app_assoc|]. rewrite flat_map_app. now apply thinned_app.
    Qed.
    Lemma pratt_goes min : goes (S f) some (sql_pratt expr f min).
    Proof.
      intros s ys trees S Y L. unfold sql_pratt. destruct (primary_goes s ys trees S Y L) as (it & s1 & u1 & ys1 & E1 & (S1 & Y1 & Q1 & T1) & La & U1). rewrite E1. assert (Ln : length ys = length u1 + length ys1) by (rewrite Q1; apply app_length). assert (Lf : length ys1 < f) by lia.
      destruct (loop_goes f it min s1 ys1 trees S1 Y1 La ltac:(lia) Lf) as (s2 & it2 & u2 & ys2 & n2 & E2 & S2 & Y2 & Q2 & Yi & T2). exists s2, (u1 ++ u2), ys2, [it2]. split; [exact E2|]. split.
      - split; [exact S2|]. split; [exact Y2|]. split; [now rewrite Q1, Q2, app_assoc|]. cbn [flat_map] in *. rewrite app_nil_r in *. rewrite Yi. now apply thinned_app.
      - intros N E. apply app_eq_nil in E. now apply (U1 N).
    Qed.
    Lemma items_goes stop : goes f never (sql_items expr f stop).
    Proof. apply (goes_loop f some); [apply goes_seq; [apply He | go]|]. intros s ys trees S C. pose proof (more_some _ _ _ _ S C) as N. now split. Qed.
    Lemma goes_at m (Q : list (nat * nat) -> Prop) (c : pstate -> bool) a b : goes m Q a -> goes m Q b -> goes m Q (fun s => if c s then a s else b s).
    Proof. intros A B s ys trees S Y L. destruct (c s); [exact (A s ys trees S Y L) | exact (B s ys trees S Y L)]. Qed.
    Lemma join_goes : goes f (at_some [QJoin; QInner; QLeft; QRight; QFull]) (sql_join expr).
    Proof.
      unfold sql_join. apply goes_node. assert (R : goes f never (sql_want QIdentifier_ ;> sql_if QOn (expr 0) sql_nop)) by go. intros s ys trees S Y L. unfold sql_seq at 1. destruct (at_kind s QJoin) eqn:At.
      - assert (G : goes f (at_some [QJoin]) (sql_want QJoin ;> sql_want QIdentifier_ ;> sql_if QOn (expr 0) sql_nop)) by (apply goes_seq; [apply goes_want | exact R]). destruct (G s ys trees S Y L) as (s' & u & ys' & new & E & St & U). exists s', u, ys', new. split; [exact E|]. split; [exact St|]. intros _. apply U. rewrite (sits_at _ _ _ _ _ S) in At. destruct ys as [| y ys]; [discriminate|]. apply Nat.eqb_eq in At. exists y, ys. split; [reflexivity | now left].
      - assert (G : goes f some ((sql_bump ;> sql_may QOuter) ;> sql_want QJoin ;> sql_want QIdentifier_ ;> sql_if QOn (expr 0) sql_nop)) by (apply goes_seq; [apply goes_seq; [apply goes_bump | go] | go]). destruct (G s ys trees S Y L) as (s' & u & ys' & new & E & St & U). exists s', u, ys', new. split; [exact E|]. split; [exact St|]. intros (y & r & -> & _). now apply U.
    Qed.
    Lemma at_heads ks s ys trees : sits s ys trees -> existsb (at_kind s) ks = true -> at_some ks ys.
    Proof. intros S E. apply existsb_exists in E. destruct E as (k & I & E). rewrite (sits_at _ _ _ _ _ S) in E. destruct ys as [| y r]; [discriminate|]. apply Nat.eqb_eq in E. exists y, r. split; [reflexivity | now rewrite E]. Qed.
    Lemma joins_goes : goes f never (sql_joins expr f).
    Proof. apply (goes_loop f _ _ _ join_goes). intros s ys trees S C. pose proof (at_heads _ _ _ _ S C) as H. split; [exact H|]. destruct H as (y & r & -> & _). discriminate. Qed.
    Lemma group_goes : goes f never (sql_group expr f).
    Proof. pose proof (goes_list f [] _ (He 0)). unfold sql_group. go. Qed.
    Lemma order_goes : goes f never (sql_order expr f).
    Proof. assert (A : goes f some (expr 0 ;> sql_if QAsc sql_nop (sql_may QDesc))) by (apply goes_seq; [apply He | go]). pose proof (goes_list f [] _ A). unfold sql_order. go. Qed.
    Lemma starts (k : nat) kind a : goes f never a -> goes f (at_some [k]) (sql_node kind (sql_want k ;> a)).
    Proof. intros A. apply goes_node, goes_seq; [apply goes_want | exact A]. Qed.
    Lemma statement_goes : goes f some (sql_statement expr f).
    Proof.
      assert (Sel : goes f (at_some [QSelect]) (sql_select expr f)).
      { apply starts. pose proof (items_goes QFrom). pose proof joins_goes. pose proof group_goes. pose proof order_goes. assert (goes f never (sql_having expr)) by (unfold sql_having; go). assert (goes f never sql_limit) by (unfold sql_limit; go). go. }
      assert (Ins : goes f (at_some [QInsert]) (sql_insert expr f)) by (apply starts; pose proof (items_goes QRightParen); go).
      assert (Upd : goes f (at_some [QUpdate]) (sql_update expr f)).
      { apply starts. assert (A : goes f some (sql_want QIdentifier_ ;> sql_want QEqual ;> expr 0)) by (apply goes_seq2; [go|]; apply goes_seq2; [go | apply He]). pose proof (goes_list f [QWhere; QSemicolon] _ A). go. }
      assert (Del : goes f (at_some [QDelete]) (sql_delete expr)) by (apply starts; go).
      assert (Skp : forall kind, goes f some (sql_skipped kind)) by (intros kind; apply goes_node, goes_seq; [apply goes_bump | go]).
      assert (One : forall k a, goes f (at_some [k]) a -> forall s ys trees, sits s ys trees -> ysettled ys -> S (length ys) < f -> at_kind s k = true -> exists s' used ys' new, a s = Some s' /\ step_of s ys trees s' used ys' new /\ (some ys -> used <> [])).
      { intros k a A s ys trees S Y L At. destruct (A s ys trees S Y L) as (s' & u & ys' & new & E & St & U). exists s', u, ys', new. split; [exact E|]. split; [exact St|]. intros _. apply U, (at_heads [k] s ys trees S). cbn [existsb]. now rewrite At. }
      intros s ys trees S Y L. unfold sql_statement. destruct (at_kind s QSelect) eqn:A1; [exact (One _ _ Sel s ys trees S Y L A1)|]. destruct (at_kind s QInsert) eqn:A2; [exact (One _ _ Ins s ys trees S Y L A2)|]. destruct (at_kind s QUpdate) eqn:A3; [exact (One _ _ Upd s ys trees S Y L A3)|]. destruct (at_kind s QDelete) eqn:A4; [exact (One _ _ Del s ys trees S Y L A4)|].
      destruct (at_kind s QCreate); [exact (Skp _ s ys trees S Y L)|]. destruct (at_kind s QDrop); [exact (Skp _ s ys trees S Y L)|]. destruct (at_kind s QAlter); [exact (Skp _ s ys trees S Y L)|]. exact (goes_rest f s ys trees S Y L).
    Qed.
    Lemma top_goes : goes f some (sql_top expr f).
    Proof. intros s ys trees S Y L. unfold sql_top. rewrite (current_settled s ys trees S Y). exact (statement_goes s ys trees S Y L). Qed.
  End Grammar.
  Lemma expr_goes : forall f min, goes f some (sql_expr f min).
  Proof. induction f as [| f IH]; intros min; [intros s ys trees _ _ L; lia|]. exact (pratt_goes (sql_expr f) f IH min). Qed.
  Lemma root_goes f s ys trees : sits s ys trees -> ysettled ys -> S (length ys) < f ->
    exists ch errs, sql_root f s = Some (gnode NRoot ch, errs) /\ thinned ys (flat_map yield ch).
  Proof.
    intros S Y L. unfold sql_root, sql_node_at. destruct (goes_while f some ps_not_at_end _ (top_goes (sql_expr f) f (expr_goes f))) with (f := f) (s := s) (ys := ys) (trees := trees) as (s1 & u & ys1 & new & E & (S1 & Y1 & Q1 & T1) & C & _); [| exact S | exact Y | exact L | lia |].
    { intros s0 ys0 tr0 S0 C0. rewrite (sits_end _ _ _ _ S0) in C0. destruct ys0; [discriminate|]. now split. }
    rewrite E. unfold checkpoint. rewrite (sits_sink _ _ _ _ S). rewrite (sits_end _ _ _ _ S1) in C. destruct ys1; [|discriminate]. destruct (sits_finish sql_ign toks Hfit s1 [] trees new (ps_index s) NRoot S1) as (i & s2 & F & S2 & _). rewrite F. exists new, (ps_errs s2). split; [reflexivity|]. rewrite Q1, app_nil_r. exact T1.
  Qed.
End Parse.
