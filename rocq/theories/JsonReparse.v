(** C111: parsing a text again with the tree of the first time and no edits. *)
From Verif Require Import Base Utf8 EditModel LexModel TreeModel TreeSpec TreeProofs ParserModel ParserSpec ParserProofs.
From Verif Require Import JsonSpec JsonModel JsonLangSpec JsonParseProofs JsonDocProofs.

(** ** The reference never takes the end *)
Definition leaves_end (A : list nat -> res) : Prop :=
  forall ks b e r, A ks = Some (b, e, r) -> exists u, ks = u ++ r /\ ~ In KEof u.

Lemma le_id ks : exists u, ks = u ++ ks /\ ~ In KEof u.
Proof. exists []. split; [reflexivity | intros []]. Qed.
Lemma le_cons k ks r : (k =? KEof) = false -> (exists u, ks = u ++ r /\ ~ In KEof u) -> exists u, k :: ks = u ++ r /\ ~ In KEof u.
Proof. intros K (u & -> & N). exists (k :: u). split; [reflexivity|]. apply Nat.eqb_neq in K. intros [E | I]; [now apply K | auto]. Qed.
Lemma le_trans a b c : (exists u, a = u ++ b /\ ~ In KEof u) -> (exists u, b = u ++ c /\ ~ In KEof u) -> exists u, a = u ++ c /\ ~ In KEof u.
Proof. intros (u & -> & N) (w & -> & M). exists (u ++ w). split; [now rewrite app_assoc|]. rewrite in_app_iff. tauto. Qed.

Lemma loop_end cfg close item : leaves_end item -> forall fuel first, leaves_end (aloop cfg close item fuel first).
Proof.
  intros Hi. induction fuel as [| f IH]; intros first ks b e r H; [discriminate|]. cbn [aloop] in H. destruct ks as [| k r0]; [injection H as <- <- <-; apply le_id|].
  destruct (k =? close); [injection H as <- <- <-; apply le_id|]. destruct (k =? KEof) eqn:Ke; [injection H as <- <- <-; apply le_id|].
  assert (N : forall ks2, match item ks2 with None => None | Some (false, e, r3) => Some (false, e, r3) | Some (true, e, r3) => match aloop cfg close item f false r3 with Some (b, e', r4) => Some (b, e ++ e', r4) | None => None end end = Some (b, e, r) -> exists u, ks2 = u ++ r /\ ~ In KEof u).
  { intros ks2 H2. destruct (item ks2) as [[[b2 e2] r2]|] eqn:I2; [|discriminate]. apply Hi in I2. destruct b2; [|injection H2 as <- <- <-; assumption]. destruct (aloop cfg close item f false r2) as [[[b3 e3] r3]|] eqn:L3; [|discriminate]. injection H2 as <- <- <-. apply IH in L3. exact (le_trans _ _ _ I2 L3). }
  cbv zeta in H. destruct first; [exact (N _ H)|]. destruct (k =? KComma) eqn:Kc; [|injection H as <- <- <-; apply le_id].
  destruct (match hd_error r0 with Some k2 => k2 =? close | None => false end); [|exact (le_cons k r0 r Ke (N _ H))]. destruct (jc_trailing cfg); injection H as <- <- <-; apply le_cons; (assumption || apply le_id).
Qed.
Lemma items_end cfg n open close item : (open =? KEof) = false -> (close =? KEof) = false -> leaves_end item -> leaves_end (aitems cfg n open close item).
Proof.
  intros Ho Hc Hi ks b e r H. unfold aitems in H. destruct ks as [| k r0]; [injection H as <- <- <-; apply le_id|]. destruct (k =? open) eqn:K; [|injection H as <- <- <-; apply le_id]. apply Nat.eqb_eq in K. subst k.
  apply le_cons; [assumption|]. destruct (aloop cfg close item n true r0) as [[[b2 e2] r2]|] eqn:L; [|discriminate]. apply (loop_end cfg close item Hi) in L. destruct b2; [|injection H as <- <- <-; assumption].
  destruct r2 as [| k2 r3]; [injection H as <- <- <-; assumption|]. destruct (k2 =? close) eqn:K2; injection H as <- <- <-; [|assumption]. apply Nat.eqb_eq in K2. subst k2. apply (le_trans _ _ _ L). apply le_cons; [assumption | apply le_id].
Qed.
Lemma entry_end cfg value : leaves_end value -> leaves_end (aentry cfg value).
Proof.
  intros Hv ks b e r H. unfold aentry in H. destruct ks as [| k r0]; [injection H as <- <- <-; apply le_id|]. destruct (akey cfg k) eqn:K; [|injection H as <- <- <-; apply le_id].
  apply le_cons. { unfold akey in K. destruct (k =? KEof) eqn:E; [|reflexivity]. apply Nat.eqb_eq in E. subst k. cbn in K. now rewrite andb_false_r in K. }
  assert (M : match value r0 with Some (b, e, r3) => Some (b, 0 :: e, r3) | None => None end = Some (b, e, r) -> exists u, r0 = u ++ r /\ ~ In KEof u).
  { intros M. destruct (value r0) as [[[b2 e2] r2]|] eqn:V; [|discriminate]. injection M as <- <- <-. exact (Hv _ _ _ _ V). }
  destruct r0 as [| k2 r2]; [exact (M H)|]. destruct (k2 =? KColon) eqn:K2; [|exact (M H)]. apply Nat.eqb_eq in K2. subst k2. apply le_cons; [reflexivity|]. exact (Hv _ _ _ _ H).
Qed.
Lemma value_end cfg n : forall fuel, leaves_end (avalue cfg n fuel).
Proof.
  induction fuel as [| f IH]; intros ks b e r H; [discriminate|]. cbn [avalue] in H. destruct ks as [| k r0]; [injection H as <- <- <-; apply le_id|]. destruct (k =? KEof) eqn:K; [injection H as <- <- <-; apply le_id|].
  destruct (value_kind k) as [v|]; [|injection H as <- <- <-; apply le_id]. destruct (v =? KObject); [|destruct (v =? KArray)].
  - revert H. apply items_end; [reflexivity | reflexivity | now apply entry_end].
  - revert H. now apply items_end.
  - injection H as <- <- <-. apply le_cons; [assumption | apply le_id].
Qed.
(** A value that begins is not empty. *)
Lemma value_takes cfg n f k r0 v b e r : (k =? KEof) = false -> value_kind k = Some v -> avalue cfg n (S f) (k :: r0) = Some (b, e, r) -> length r <= length r0.
Proof.
  intros K V H. cbn [avalue] in H. rewrite K, V in H.
  assert (I : forall open close item, (open =? KEof) = false -> (close =? KEof) = false -> leaves_end item -> k = open -> aitems cfg n open close item (k :: r0) = Some (b, e, r) -> length r <= length r0).
  { intros open close item Ho Hc Hi -> H2. unfold aitems in H2. rewrite Nat.eqb_refl in H2. destruct (aloop cfg close item n true r0) as [[[b2 e2] r2]|] eqn:L; [|discriminate]. apply (loop_end cfg close item Hi) in L as (u & -> & _). rewrite app_length.
    destruct b2; [|injection H2 as <- <- <-; lia]. destruct r2 as [| k2 r3]; [injection H2 as <- <- <-; cbn; lia|]. destruct (k2 =? close); injection H2 as <- <- <-; cbn; lia. }
  destruct (v =? KObject) eqn:Vo; [|destruct (v =? KArray) eqn:Va].
  - apply Nat.eqb_eq in Vo. subst v. apply (I KLBrace KRBrace (aentry cfg (avalue cfg n f))); [reflexivity | reflexivity | apply entry_end, value_end | | exact H].
    unfold value_kind in V. destruct (k =? KLBrace) eqn:E; [now apply Nat.eqb_eq|]. repeat match type of V with (if ?c then _ else _) = _ => destruct c; [discriminate|] end. discriminate.
  - apply Nat.eqb_eq in Va. subst v. apply (I KLBracket KRBracket (avalue cfg n f)); [reflexivity | reflexivity | apply value_end | | exact H].
    unfold value_kind in V. destruct (k =? KLBrace); [discriminate|]. destruct (k =? KLBracket) eqn:E; [now apply Nat.eqb_eq|]. repeat match type of V with (if ?c then _ else _) = _ => destruct c; [discriminate|] end. discriminate.
  - injection H as <- <- <-. lia.
Qed.

(** ** Finding the tokens of the old node again *)
Definition wsum (ts : list token) : nat := list_sum (map (fun t => snd (tok_yield t)) ts).
Lemma wsum_cons t r : wsum (t :: r) = tk_end t - tk_start t + wsum r. Proof. reflexivity. Qed.
Lemma verify_hits : forall ts m pos e la, tiles tok_span pos ts e -> m < length ts -> Forall (fun t => tk_start t < tk_end t) (firstn (S m) ts) ->
  verify_tokens ts la pos (pos + wsum (firstn (S m) ts)) = Some (la + S m).
Proof.
  induction ts as [| t r IH]; intros m pos e la T L F; [cbn in L; lia|]. inversion T as [| a x l e' E1 E2 T2]; subst. change (fst (tok_span t)) with (tk_start t) in *. change (snd (tok_span t)) with (tk_end t) in *. rewrite firstn_cons in *. rewrite wsum_cons. inversion F as [| ? ? F1 F2]; subst.
  cbn [verify_tokens]. rewrite Nat.eqb_refl. cbn [negb]. destruct m as [| m].
  - cbn [firstn]. change (wsum []) with 0. replace (tk_end t =? tk_start t + (tk_end t - tk_start t + 0)) with true by (symmetry; apply Nat.eqb_eq; lia). reflexivity.
  - cbn [length] in L. destruct r as [| t2 r2]; [cbn in L; lia|]. assert (F' := F2). rewrite firstn_cons in F'. inversion F' as [| ? ? F3 _]; subst.
    assert (W : 0 < wsum (firstn (S m) (t2 :: r2))) by (rewrite firstn_cons, wsum_cons; lia).
    specialize (IH m (tk_end t) e (la + 1) T2 ltac:(lia) F2). set (w := wsum (firstn (S m) (t2 :: r2))) in *.
    replace (tk_end t =? tk_start t + (tk_end t - tk_start t + w)) with false by (symmetry; apply Nat.eqb_neq; lia).
    replace (tk_start t + (tk_end t - tk_start t + w) <? tk_end t) with false by (symmetry; apply Nat.ltb_ge; lia).
    replace (tk_start t + (tk_end t - tk_start t + w)) with (tk_end t + w) by lia. rewrite IH. f_equal. lia.
Qed.

Lemma reuse_child f k w ch ts pos m wr rest0 : (KRoot =? k) = false -> verify_tokens ts 0 pos (pos + w) = Some m ->
  exists c, reuse_loop (S (S f)) k [] ts pos 0 (tc_new (GNode KRoot wr (GNode k w ch :: rest0))) = (Some (GNode k w ch, m), c).
Proof.
  intros Hk V. cbn [reuse_loop tc_new tc_offset tc_current Z.of_nat Z.eqb]. rewrite Hk. cbn [andb]. unfold into_or_next, step_into. cbn [tc_current tc_offset tc_stack Z.of_nat Z.eqb is_dirty existsb negb tc_new reuse_loop]. rewrite Nat.eqb_refl. cbn [andb]. rewrite V. eexists. reflexivity.
Qed.

Lemma value_kind_root k v : value_kind k = Some v -> (KRoot =? v) = false.
Proof. unfold value_kind. repeat match goal with |- (if ?c then _ else _) = _ -> _ => destruct c; [intros E; injection E as <-; reflexivity|] end. discriminate. Qed.

Lemma reparse_run cfg body eof n : lengths_fit (body ++ [eof]) -> (Z.of_nat (list_sum (map (fun t => snd (tok_yield t)) (body ++ [eof]))) < 2 ^ 32)%Z ->
  tk_kind eof = KEof -> Forall (fun t => tk_start t < tk_end t) body -> tiles tok_span 0 (body ++ [eof]) n ->
  match body ++ [eof] with [] => True | t :: _ => ignored (tk_kind t) = false end ->
  exists root errs errs', run_parser cfg (ps_new ignored (body ++ [eof]) n []) = Some (root, errs) /\
    run_parser cfg (set_inc (ps_new ignored (body ++ [eof]) n []) (Some (inc_new root []))) = Some (root, errs') /\ (errs' = [] \/ errs' = errs).
Proof.
  set (toks := body ++ [eof]). intros Hf Hs He Hp Ht Hi.
  assert (Lt : length toks = S (length body)) by (unfold toks; rewrite app_length; cbn; lia).
  destruct (run_parser_spec cfg toks n Hf Hs) as (root & errs & _ & _ & _ & R1 & _). exists root, errs.
  destruct toks as [| t0 tr] eqn:Et; [discriminate|]. rewrite <- Et in *.
  assert (New : ps_new ignored toks n [] = PState toks 0 [] 0 [] n None).
  { unfold ps_new, skip_trivia. cbn [ps_toks ps_index]. rewrite Nat.sub_0_r, Lt. cbn [skip_trivia_loop]. unfold ps_current. cbn [ps_toks ps_index]. rewrite Et. cbn [nth_error]. now rewrite Hi. }
  rewrite New in *. cbn [set_inc ps_toks ps_index ps_sink ps_next ps_errs ps_srclen ps_inc]. set (si := fun i => PState toks 0 [] 0 [] n i). change (PState toks 0 [] 0 [] n None) with (si None) in *.
  change (set_inc (si None) (Some (inc_new root []))) with (si (Some (inc_new root []))).
  assert (Se : forall i, settled ignored (si i)). { intros i. unfold settled, to_come, si. cbn [ps_index ps_toks skipn]. now rewrite Et. }
  assert (Sk : forall i, json_skip (si i) = si i) by (intros i; apply skip_rest; apply Se).
  assert (Cu : forall i, ps_current (si i) = Some t0) by (intros i; unfold ps_current, si; cbn [ps_toks ps_index]; rewrite Et; reflexivity).
  unfold run_parser in *. change (ps_toks (si None)) with toks in *. change (ps_toks (si (Some (inc_new root [])))) with toks. cbn [parse_value] in *. cbv zeta in *. rewrite Sk, Cu in R1. rewrite !Sk, !Cu.
  assert (Err : forall i tag at_ s', s' = PState toks 0 [] 0 [(tag, at_)] n i ->
    match finish_at (json_skip s') (0, 0) KRoot with None => None | Some ((_, r), s3) => Some (r, ps_errs s3) end = Some (GNode KRoot 0 [], [(tag, at_)])).
  { intros i tag at_ s' ->. rewrite skip_rest; [reflexivity|]. unfold settled, to_come. cbn [ps_index ps_toks skipn]. now rewrite Et. }
  change (checkpoint (si None)) with (0, 0) in *. change (checkpoint (si (Some (inc_new root [])))) with (0, 0).
  destruct (tk_kind t0 =? KEof) eqn:K0.
  { exists errs. assert (R2 := R1). rewrite (Err None 3 n (eof_error (si None)) eq_refl) in R2. split; [exact R1|]. split; [|now right]. rewrite (Err _ 3 n (eof_error (si (Some (inc_new root [])))) eq_refl). exact R2. }
  destruct (value_kind (tk_kind t0)) as [k|] eqn:Vk.
  2: { exists errs. assert (R2 := R1). unfold unexpected_error in *. assert (Co : forall i, current_offset (si i) = tk_start t0) by (intros i; unfold current_offset; now rewrite Cu). rewrite (Err None 1 (tk_start t0) (push_error (si None) 1 (current_offset (si None)))) in R2 by (rewrite Co; reflexivity). split; [exact R1|]. split; [|now right].
    rewrite (Err (Some (inc_new root [])) 1 (tk_start t0)) by (rewrite Co; reflexivity). exact R2. }
  assert (R0 := R1).
  (* the first time *)
  assert (O : ok toks (si None)). { split; [|split; [apply Se | reflexivity]]. split; [reflexivity|]. split; [cbn; lia|]. split; [constructor|]. split; [reflexivity | intros _; reflexivity]. }
  assert (Ks : rest (si None) = tk_kind t0 :: kinds tr). { unfold rest, to_come, si, kinds. cbn [ps_index ps_toks skipn]. rewrite Et. cbn [map filter]. now rewrite Hi. }
  assert (Lr : length (rest (si None)) <= length toks). { unfold rest, kinds, to_come, si. cbn [ps_index ps_toks skipn]. pose proof (filter_shorter (fun k => negb (ignored k)) (map tk_kind toks)). rewrite map_length in *. lia. }
  destruct (avalue_sound cfg (S (length toks)) (S (length toks)) (length toks) ltac:(lia) ltac:(lia) (rest (si None)) Lr) as (b & e & r & _ & A & _).
  destruct (value_follows cfg toks Hf Hs (S (length toks)) eq_refl (S (length toks)) (si None) b e r O A) as (s1 & P1 & (O1 & Rr & _ & _)).
  pose proof (value_end cfg _ _ _ _ _ _ A) as (u & Eu & Nu). rewrite Ks in A. pose proof (value_takes _ _ _ _ _ _ _ _ _ K0 Vk A) as Tk. clear A.
  cbn [parse_value] in P1. cbv zeta in P1. rewrite Sk, Cu, K0, Vk in P1. rewrite P1 in R1. rewrite (skip_rest s1 (proj1 (proj2 O1))) in R1.
  unfold node in P1 at 1. change (try_reuse k (si None)) with (Some (false, si None)) in P1. cbn iota beta in P1. cbv zeta in P1. change (checkpoint (si None)) with (0, 0) in P1.
  match type of P1 with match ?m with _ => _ end = _ => destruct m as [[b2 s2]|]; [|discriminate] end.
  unfold finish_at in P1. cbn [snd Nat.ltb] in P1. change (length (ps_sink s2) <? 0) with false in P1. cbn iota in P1. unfold new_node in P1. destruct (fits_u32 (sum_len (map snd (skipn 0 (ps_sink s2))))); [|discriminate]. cbn [firstn app] in P1. injection P1 as <- <-.
  set (g := GNode k _ _) in *.
  destruct O1 as ((Tt & Ix & Bt & Wd & _) & Se1 & _). cbn [ps_index ps_toks sink_trees ps_sink map snd list_sum fold_right] in Tt, Ix, Bt, Wd. rewrite Nat.add_0_r in Wd. pose proof (Forall_inv Bt : built g) as Bg. pose proof (glen_width g Bg) as Wg.
  (* the root *)
  unfold finish_at in R1. cbn [snd ps_sink length] in R1. change (1 <? 0) with false in R1. cbn iota in R1. cbn [skipn map snd] in R1. destruct (new_node KRoot [g]) as [root0|] eqn:Nr; [|discriminate]. cbn [ps_errs] in R1. injection R1 as -> <-.
  assert (Er : root = GNode KRoot (sum_len [g]) [g]). { unfold new_node in Nr. destruct (fits_u32 (sum_len [g])); [|discriminate]. now injection Nr as <-. }
  set (i1 := ps_index s2) in *.
  assert (Rr' : kinds (skipn i1 toks) = r) by (rewrite <- Rr, <- Tt; reflexivity).
  assert (I0 : i1 <> 0). { intros E. rewrite E in Rr'. cbn [skipn] in Rr'. unfold rest, to_come, si in Ks. cbn [ps_index ps_toks skipn] in Ks. rewrite Rr' in Ks. rewrite Ks in Tk. cbn [length] in Tk. lia. }
  assert (I1 : i1 <= length body).
  { destruct (Nat.le_gt_cases i1 (length body)) as [H | H]; [assumption|]. exfalso. rewrite skipn_all2 in Rr' by lia. cbn in Rr'. rewrite <- Rr', app_nil_r in Eu. apply Nu. rewrite <- Eu. unfold rest, to_come, si. cbn [ps_index ps_toks skipn]. unfold toks. rewrite kinds_app. apply in_or_app. right. unfold kinds. cbn [map filter]. rewrite He. now left. }
  destruct i1 as [| m] eqn:Ei; [congruence|].
  assert (V : verify_tokens toks 0 0 (0 + sum_len (map snd (skipn 0 (ps_sink s2)))) = Some (S m)).
  { change (sum_len (map snd (skipn 0 (ps_sink s2)))) with (glen g). rewrite Wg, Wd. apply (verify_hits toks m 0 n 0 Ht); [lia|]. unfold toks. rewrite firstn_app. replace (S m - length body) with 0 by lia. cbn [firstn]. rewrite app_nil_r. rewrite <- (firstn_skipn (S m) body) in Hp. now apply Forall_app in Hp as [Hp _]. }
  (* the second time *)
  exists []. split; [exact R0|]. split; [|now left]. 
  assert (T0 : tk_start t0 = 0) by (rewrite Et in Ht; inversion Ht; subst; cbn in *; assumption).
  assert (Rn : exists c, reuse_loop REUSE_ROUNDS k [] toks 0 0 (tc_new root) = (Some (g, S m), c)).
  { rewrite Er. change REUSE_ROUNDS with (S (S 99)). apply reuse_child; [exact (value_kind_root _ _ Vk) | exact V]. }
  destruct Rn as (c & Rn).
  assert (TR : try_reuse k (si (Some (inc_new root []))) = Some (true, PState toks (S m) [(Some 0, g)] 1 [] n (Some (Incremental c [])))).
  { unfold try_reuse. assert (Co : current_offset (si (Some (inc_new root []))) = 0) by (unfold current_offset; rewrite Cu; exact T0). rewrite Co. change (ps_inc (si (Some (inc_new root [])))) with (Some (inc_new root [])). cbn iota. change (ic_edits (inc_new root [])) with (@nil (nat * nat * Z)). change (map_new_to_old [] 0 0) with (Some 0%Z). cbn iota.
    change (ic_cursor (inc_new root [])) with (tc_new root). change (skipn (ps_index (si (Some (inc_new root [])))) (ps_toks (si (Some (inc_new root []))))) with toks. rewrite Rn, (deep_clone_built g Bg). reflexivity. }
  unfold node at 1. rewrite TR.
  rewrite skip_rest; [|unfold settled, to_come in *; cbn [ps_index ps_toks] in *; rewrite Tt, <- Ei in *; exact Se1]. unfold finish_at. cbn [snd ps_sink length]. change (1 <? 0) with false. cbn iota. cbn [skipn map snd]. rewrite Nr. reflexivity.
Qed.

(** ** The texts *)
From Verif Require Import Utf8Facts LexSpec CursorModel CursorSpec CursorProofs JsonLexProofs JsonTextProofs JsonProps.

Lemma spans_positive alpha alnum cfg ps : Forall (piece_sound alpha alnum cfg) ps -> forall off, Forall (fun t => tk_start t < tk_end t) (spans off ps).
Proof.
  induction 1 as [| [k s] r [N _] _ IH]; intros off; [constructor|]. cbn [snd] in N. cbn [spans]. cbv zeta. apply Forall_app. split; [|apply IH]. destruct k; constructor; [|constructor]. cbn [tk_start tk_end].
  destruct s as [| c s]; [congruence|]. cbn [encode]. rewrite app_length. assert (0 < length (encode_char c)) by (unfold encode_char; repeat match goal with |- context [if ?b then _ else _] => destruct b end; cbn; lia). lia.
Qed.

(** The second parse gives the tree of the first; it reports what the first reported, or nothing. *)
Theorem json_reparse_partial alpha alnum cfg cs toks : Forall is_scalar cs -> (Z.of_nat (length (encode cs)) < 2 ^ 32)%Z ->
  json_lex alpha alnum (flat_source (encode cs)) cfg = Some toks -> tiles tok_span 0 toks (length (encode cs)) ->
  match toks with [] => True | t :: _ => ignored (tk_kind t) = false end ->
  exists root errs errs', json_parse alpha alnum cfg (encode cs) None = Some (root, errs) /\
    json_parse alpha alnum cfg (encode cs) (Some (root, [])) = Some (root, errs') /\ (errs' = [] \/ errs' = errs).
Proof.
  intros F L El Ti Hi. assert (Hs : serves (flat_source (encode cs)) (encode cs)) by (apply flat_serves; now exists cs). destruct (json_lex_pieces alpha alnum _ _ cfg cs Hs eq_refl F) as (ps & P & T & E).
  rewrite El in E. injection E as ->. unfold json_parse. rewrite El.
  assert (O : in_order 0 (spans 0 ps ++ [eof_at (length (encode cs))]) (length (encode cs))). { apply (order_app _ 0 _ (length (encode cs))); [|cbn; lia]. rewrite <- T. apply spans_order. }
  apply (order_sum alpha alnum) in O as (_ & O1 & O2). apply reparse_run; try assumption; [| lia | reflexivity |].
  - unfold lengths_fit. revert O2. apply Forall_impl. intros t Ht. lia.
  - apply (spans_positive alpha alnum cfg). exact (pieces_sound _ _ _ _ _ P).
Qed.
Print Assumptions json_reparse_partial.

(** A JSON text that does not begin with white space is parsed the same way again. *)
Theorem json_reparse_valid_partial alpha alnum cfg cs v : Forall is_scalar cs -> (Z.of_nat (length (encode cs)) < 2 ^ 32)%Z -> jtext cs v ->
  match cs with [] => True | c :: _ => ~ is_ws c end ->
  exists root, json_parse alpha alnum cfg (encode cs) None = Some (root, []) /\ json_parse alpha alnum cfg (encode cs) (Some (root, [])) = Some (root, []).
Proof.
  intros F L J Hc. destruct (valid_parse alpha alnum cfg cs v F L J) as (root & ps & w & rest & Ep & El & T & W & E & Hw & Hr & Hd & _).
  assert (w = []) as ->. { destruct w as [| c w]; [reflexivity|]. exfalso. rewrite E in Hc. inversion Hw; subst. contradiction. } cbn [app] in E. subst rest.
  assert (Lo : left_out ps = []) by (clear - W; induction W as [| [k s] r H _ IH]; [reflexivity|]; destruct k; [exact IH | destruct H]).
  assert (Ti : tiles tok_span 0 (spans 0 ps ++ [eof_at (length (encode cs))]) (length (encode cs))). { apply (json_tiles_unless_stray_partial alpha alnum (flat_source (encode cs)) (encode cs) cfg cs ps); try assumption; [apply flat_serves; now exists cs | reflexivity]. }
  destruct (json_parse_spec alpha alnum cfg cs F L) as (qs & root' & errs & lead & used & left & P & Tq & El' & Ep' & Et & Hl & Hf & Hu & B & Y & _). rewrite Ep in Ep'. injection Ep' as <- <-. rewrite El in El'. injection El' as E'. apply app_inj_tail in E' as [E' _]. rewrite <- E' in Et.
  assert (Hi : match spans 0 ps ++ [eof_at (length (encode cs))] with [] => True | t :: _ => ignored (tk_kind t) = false end).
  { assert (lead = []) as ->.
    { assert (O : in_order 0 (spans 0 ps ++ [eof_at (length (encode cs))]) (length (encode cs))). { apply (order_app _ 0 _ (length (encode cs))); [|cbn; lia]. rewrite <- T. apply spans_order. }
      apply (order_sum alpha alnum) in O as (_ & O1 & _). rewrite Et, map_app, list_sum_app in O1. rewrite <- yield_width, Y in Hd. rewrite map_map in Hd. rewrite map_app, list_sum_app in O1. destruct lead as [| t lead]; [reflexivity|]. exfalso.
      assert (tk_start t < tk_end t). { assert (Fp := spans_positive alpha alnum cfg qs (pieces_sound _ _ _ _ _ P) 0). rewrite <- E' in Fp. destruct (spans 0 ps) as [| t1 r1]; cbn [app] in Et; injection Et as Et _; [|inversion Fp; congruence]. inversion Hl; subst. discriminate. }
      cbn [map list_sum fold_right] in O1. unfold tok_yield in O1 at 1. cbn [snd] in O1. fold (list_sum (map (fun t => snd (tok_yield t)) lead)) in O1. lia. }
    cbn [app] in Et. rewrite Et. exact Hu. }
  destruct (json_reparse_partial alpha alnum cfg cs _ F L El Ti Hi) as (root2 & errs & errs' & R1 & R2 & R3). rewrite Ep in R1. injection R1 as <- <-. exists root. split; [assumption|]. rewrite R2. destruct R3; congruence.
Qed.
Print Assumptions json_reparse_valid_partial.

(** White space at the start: the tree does not have it, and the second parse looks for old nodes at the wrong places.  It
    finds another tree. *)
Theorem json_reparse_leading_refuted : exists text root root', root <> root' /\ forall alpha alnum,
  json_parse alpha alnum standard text None = Some (root, []) /\ json_parse alpha alnum standard text (Some (root, [])) = Some (root', []).
Proof.
  exists (lit " [[1]]"), (GNode KRoot 5 [GNode KArray 5 [GLeaf KLBracket 1 None; GNode KArray 3 [GLeaf KLBracket 1 None; GNode KNumber 1 [GLeaf KNumberLit 1 None]; GLeaf KRBracket 1 None]; GLeaf KRBracket 1 None]]).
  eexists. split; [|intros alpha alnum; split; vm_compute; reflexivity]. intros E. discriminate E.
Qed.
Print Assumptions json_reparse_leading_refuted.

Example reparse_case : jtext (lit "[null ]") (JArray [JNull]) /\ exists root,
  json_parse no_letters no_letters standard (lit "[null ]") None = Some (root, []) /\ json_parse no_letters no_letters standard (lit "[null ]") (Some (root, [])) = Some (root, []).
Proof.
  assert (J : jtext (lit "[null ]") (JArray [JNull])). { apply (TText [] (lit "[null ]") []); [constructor | | constructor]. apply (VArray (lit "null ") [JNull]). apply EOne. apply (TText [] (lit "null") [32%Z]); [constructor | constructor | constructor; [now left | constructor]]. }
  split; [exact J|]. change (lit "[null ]") with (encode (lit "[null ]")). apply (json_reparse_valid_partial no_letters no_letters standard (lit "[null ]") (JArray [JNull]) ltac:(apply scalars_by; reflexivity) ltac:(vm_compute; reflexivity) J). cbn. intros H. unfold is_ws in H. repeat destruct H as [H | H]; discriminate.
Qed.
