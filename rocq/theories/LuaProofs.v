(** Facts about the Lua parser that hold for every text. *)
From Verif Require Import Base Utf8 Utf8Facts LexModel LexSpec TreeModel TreeSpec TreeProofs ParserModel ParserSpec ParserProofs JsonLangSpec LangModel LangSpec LangLexProofs LangParseProofs LuaModel LuaSpec.
From Verif Require LuaLexProofs.

Lemma find_last_end id l it : fst it = Some id -> forall i, find_last id (l ++ [it]) i = Some (i + length l).
Proof.
  intros E. destruct it as [o g]. cbn [fst] in E. subst o. induction l as [| [o x] l IH]; intros i; cbn [app find_last length].
  - rewrite Nat.eqb_refl. now rewrite Nat.add_0_r.
  - rewrite IH. f_equal. lia.
Qed.
Lemma finish_last s cp k it s' : finish_at s cp k = Some (it, s') -> ps_sink s' = firstn (snd cp) (ps_sink s) ++ [it] /\ exists id, fst it = Some id.
Proof.
  unfold finish_at. destruct (length (ps_sink s) <? snd cp); [discriminate|]. destruct (new_node _ _); [|discriminate]. intros E. injection E as <- <-. split; [reflexivity | now eexists].
Qed.

Section Keep.
  Variable (toks : list token) (ts : list token) (n : nat).
  Hypothesis Hfit : (Z.of_nat (toklen toks) < 2 ^ 32)%Z.
  Hypothesis Htoks : toks = ts ++ [Token UEof n n].
  Hypothesis Hno : Forall (fun t => tk_kind t <> UEof) ts.

  Definition owed (s : pstate) (ys : list (nat * nat)) : Prop := (exists y, In y ys /\ fst y = UEof) \/ In (0, n) (ps_errs s).
  Definition kept (s : pstate) (ys : list (nat * nat)) (s' : pstate) (ys' : list (nat * nat)) (new : list green) : Prop :=
    flat_map yield new ++ ys' = ys /\ (exists e, ps_errs s' = ps_errs s ++ e) /\ (owed s ys -> owed s' ys').
  Definition keeps (P : pstate -> Prop) (a : act) : Prop := forall s ys trees s', sits toks s ys trees -> P s -> a s = Some s' ->
    exists ys' new, sits toks s' ys' (trees ++ new) /\ kept s ys s' ys' new.
  Definition keeps_item (P : pstate -> Prop) (a : pstate -> option (item * pstate)) : Prop := forall s ys trees it s', sits toks s ys trees -> P s -> a s = Some (it, s') ->
    exists ys' l id, sits toks s' ys' (trees ++ [snd it]) /\ kept s ys s' ys' [snd it] /\ fst it = Some id /\ ps_sink s' = l ++ [it].
  Definition any (s : pstate) : Prop := True.
  Definition not_eof (s : pstate) : Prop := peek_kind s <> Some UEof.

  Lemma kept_refl s ys : kept s ys s ys [].
  Proof. split; [reflexivity|]. split; [exists []; now rewrite app_nil_r | tauto]. Qed.
  Lemma kept_trans s ys s1 ys1 new1 s2 ys2 new2 : kept s ys s1 ys1 new1 -> kept s1 ys1 s2 ys2 new2 -> kept s ys s2 ys2 (new1 ++ new2).
  Proof.
    intros (<- & (e1 & E1) & O1) (<- & (e2 & E2) & O2). split; [now rewrite flat_map_app, app_assoc|]. split; [exists (e1 ++ e2); now rewrite E2, E1, app_assoc | tauto].
  Qed.
  Lemma keeps_nop : keeps any nop.
  Proof. intros s ys trees s' S _ E. injection E as <-. exists ys, []. rewrite app_nil_r. split; [exact S | apply kept_refl]. Qed.
  Lemma keeps_weak (P Q : pstate -> Prop) a : (forall s, Q s -> P s) -> keeps P a -> keeps Q a.
  Proof. intros H K s ys trees s' S q E. exact (K s ys trees s' S (H s q) E). Qed.
  Lemma keeps_seq P a b : keeps P a -> keeps any b -> keeps P (a ;; b).
  Proof.
    intros A B s ys trees s' S p E. unfold seq in E. destruct (a s) as [s1|] eqn:E1; [|discriminate]. destruct (A s ys trees s1 S p E1) as (ys1 & new1 & S1 & K1). destruct (B s1 ys1 _ s' S1 I E) as (ys2 & new2 & S2 & K2). exists ys2, (new1 ++ new2). rewrite app_assoc. split; [exact S2 | exact (kept_trans _ _ _ _ _ _ _ _ K1 K2)].
  Qed.
  Lemma yield_yleaf l : flat_map yield (map yleaf l) = l.
  Proof. induction l as [| [a b] l IH]; [reflexivity|]. cbn [map flat_map yleaf fst snd]. now rewrite IH. Qed.
  Lemma peek_sits s ys trees : sits toks s ys trees -> peek_kind s = option_map fst (hd_error ys).
  Proof. intros (rest & S & <-). unfold peek_kind. rewrite (sees_current _ _ _ _ S). now destruct rest. Qed.
  Lemma bump_kept s ys trees : sits toks s ys trees -> (not_eof s \/ In (0, n) (ps_errs s)) -> exists ys' new, sits toks (bump lua_ign s) ys' (trees ++ new) /\ kept s ys (bump lua_ign s) ys' new.
  Proof.
    intros S N. destruct ys as [| y ys].
    - exists [], []. rewrite app_nil_r. assert (bump lua_ign s = s) as ->; [|split; [exact S | apply kept_refl]]. pose proof (peek_sits s [] trees S) as P. cbn in P. unfold peek_kind in P. unfold bump. destruct (ps_current s); [discriminate | reflexivity].
    - destruct (sits_bump lua_ign toks Hfit s y ys trees S) as [S' Er]. exists (ynext lua_ign ys), (yleaf y :: map yleaf (ytrivia lua_ign ys)). split; [exact S'|]. split.
      + cbn [flat_map]. rewrite yield_yleaf. cbn [yield yleaf]. destruct y as [a b]. cbn [app fst snd]. f_equal. apply ytrivia_next.
      + split; [exists []; now rewrite Er, app_nil_r|]. intros [(z & I & Z) | O]; [|right; now rewrite Er]. destruct N as [N | N]; [|right; now rewrite Er].
        destruct I as [-> | I]; [destruct N; rewrite (peek_sits _ _ _ S); cbn; now rewrite Z|]. left. exists z. split; [|exact Z]. rewrite <- (ytrivia_next lua_ign ys) in I. apply in_app_or in I. destruct I as [I | I]; [|exact I].
        exfalso. assert (T : forall l, In z (ytrivia lua_ign l) -> lua_ign (fst z) = true). { induction l as [| w l IH]; [easy|]. cbn [ytrivia]. destruct (lua_ign (fst w)) eqn:W; [|easy]. intros [-> | J]; [exact W | now apply IH]. } specialize (T _ I). rewrite Z in T. discriminate.
  Qed.
  Lemma keeps_bump : keeps not_eof lua_bump.
  Proof. intros s ys trees s' S N E. injection E as <-. apply (bump_kept s ys trees S). now left. Qed.
  Lemma at_not_eof s k : k <> UEof -> at_kind s k = true -> not_eof s.
  Proof. unfold at_kind, not_eof. destruct (peek_kind s) as [x|]; [|discriminate]. intros N E Q. apply Nat.eqb_eq in E. congruence. Qed.
  Lemma error_kept s ys trees tag off : sits toks s ys trees -> kept s ys (push_error s tag off) ys [].
  Proof. intros S. split; [reflexivity|]. split; [now exists [(tag, off)]|]. intros [O | O]; [now left | right; cbn [push_error ps_errs]; apply in_or_app; now left]. Qed.
  Lemma keeps_want k : k <> UEof -> keeps any (want k).
  Proof.
    intros N s ys trees s' S _ E. injection E as <-. unfold expect, eat. destruct (at_kind s k) eqn:A; cbn [snd].
    - apply (bump_kept s ys trees S). left. exact (at_not_eof s k N A).
    - exists ys, []. rewrite app_nil_r. split; [exact S | now apply (error_kept s ys trees)].
  Qed.
  Lemma keeps_may k : k <> UEof -> keeps any (may k).
  Proof.
    intros N s ys trees s' S _ E. injection E as <-. unfold eat. destruct (at_kind s k) eqn:A; cbn [snd].
    - apply (bump_kept s ys trees S). left. exact (at_not_eof s k N A).
    - exists ys, []. rewrite app_nil_r. split; [exact S | apply kept_refl].
  Qed.
  Lemma keeps_if_eat k a b : k <> UEof -> keeps any a -> keeps any b -> keeps any (if_eat k a b).
  Proof.
    intros N A B s ys trees s' S _ E. unfold if_eat, eat in E. destruct (at_kind s k) eqn:At; [|exact (B s ys trees s' S I E)].
    destruct (bump_kept s ys trees S (or_introl (at_not_eof s k N At))) as (ys1 & new1 & S1 & K1). destruct (A _ ys1 _ s' S1 I E) as (ys2 & new2 & S2 & K2). exists ys2, (new1 ++ new2). rewrite app_assoc. split; [exact S2 | exact (kept_trans _ _ _ _ _ _ _ _ K1 K2)].
  Qed.
  Lemma keeps_if_at ks a b : ~ In UEof ks -> keeps not_eof a -> keeps any b -> keeps any (if_at ks a b).
  Proof.
    intros N A B s ys trees s' S _ E. unfold if_at in E. destruct (existsb (at_kind s) ks) eqn:At; [|exact (B s ys trees s' S I E)]. apply (A s ys trees s' S); [|exact E]. apply existsb_exists in At. destruct At as (k & Ik & At). apply (at_not_eof s k); [|exact At]. intros ->. contradiction.
  Qed.
  Lemma keeps_while_eat k a : k <> UEof -> keeps any a -> forall f, keeps any (while_eat f k a).
  Proof.
    intros N A. induction f as [| f IH]; [intros s ys trees s' _ _ E; discriminate|]. change (while_eat (S f) k a) with (if_eat k (a ;; while_eat f k a) nop). apply keeps_if_eat; [exact N | now apply keeps_seq | apply keeps_nop].
  Qed.
  Lemma keeps_while_not ks a : keeps any a -> forall f, keeps any (while_not f ks a).
  Proof.
    intros A. induction f as [| f IH]; intros s ys trees s' S _ E; [discriminate|]. cbn [while_not] in E. destruct (_ && _); [exact (keeps_seq any a _ A IH s ys trees s' S I E)|]. injection E as <-. exists ys, []. rewrite app_nil_r. split; [exact S | apply kept_refl].
  Qed.
  Lemma finish_kept s0 s ys pre ch kind it s' i : sits toks s ys (pre ++ ch) -> finish_at s (i, length pre) kind = Some (it, s') ->
    (forall ys0, kept s0 ys0 s ys ch -> kept s0 ys0 s' ys [snd it]) /\ sits toks s' ys (pre ++ [snd it]) /\ snd it = gnode kind ch /\ exists l id, fst it = Some id /\ ps_sink s' = l ++ [it].
  Proof.
    intros S F. destruct (sits_finish lua_ign toks Hfit s ys pre ch i kind S) as (m & s1 & F1 & S1 & Er). rewrite F in F1. injection F1 as -> ->. cbn [snd]. split.
    - intros ys0 (Y & Ee & O). split; [cbn [flat_map]; rewrite app_nil_r; exact Y|]. unfold owed in *. rewrite Er. now split.
    - split; [exact S1|]. split; [reflexivity|]. destruct (finish_last _ _ _ _ _ F) as [L (id & Id)]. now exists (firstn (length pre) (ps_sink s)), id.
  Qed.
  Lemma keeps_node_at P kind a : keeps P a -> keeps_item P (node_at checkpoint kind a).
  Proof.
    intros A s ys trees it s' S p E. unfold node_at in E. destruct (a s) as [s1|] eqn:E1; [|discriminate]. destruct (A s ys trees s1 S p E1) as (ys1 & new & S1 & K1). unfold checkpoint in E. rewrite (sits_sink _ _ _ _ S) in E.
    destruct (finish_kept s s1 ys1 trees new kind it s' _ S1 E) as (K & S' & _ & l & id & Id & L). exists ys1, l, id. split; [exact S'|]. split; [now apply K|]. now split.
  Qed.
  Lemma keeps_dropped P a : keeps_item P a -> keeps P (dropped a).
  Proof.
    intros A s ys trees s' S p E. unfold dropped in E. destruct (a s) as [[it s1]|] eqn:E1; [|discriminate]. injection E as <-. destruct (A s ys trees it s1 S p E1) as (ys1 & l & id & S1 & K1 & _). now exists ys1, [snd it].
  Qed.
  Lemma keeps_node P kind a : keeps P a -> keeps P (node kind a).
  Proof. intros A. now apply keeps_dropped, keeps_node_at. Qed.
  Lemma keeps_expected : keeps any (fun s => Some (expected s)).
  Proof. intros s ys trees s' S _ E. injection E as <-. exists ys, []. rewrite app_nil_r. split; [exact S | now apply (error_kept s ys trees)]. Qed.

  (** the last token is the end of the file, and nothing else is *)
  Lemma eof_here s ys trees : sits toks s ys trees -> peek_kind s = Some UEof -> current_offset s = n.
  Proof.
    intros (rest & V & _) P. unfold peek_kind in P. unfold current_offset. destruct V as (T & Ix & _). destruct (ps_current s) as [t|] eqn:C; [|discriminate]. injection P as P. unfold ps_current in C. rewrite T, Htoks in C. apply nth_error_In in C. apply in_app_or in C. destruct C as [C | [<- | []]]; [|reflexivity].
    rewrite Forall_forall in Hno. now apply Hno in C.
  Qed.

  Section Grammar.
    Variable (expr : nat -> act) (block : act) (f : nat).
    Hypothesis He : forall min, keeps any (expr min).
    Hypothesis Hb : keeps any block.
    Ltac kinds := intros K; discriminate K.
    Ltac kind_list := intros K; cbn in K; repeat (destruct K as [K | K]; [discriminate K|]); exact K.
    Ltac go := first [ apply keeps_nop | apply He | exact Hb | apply keeps_want; kinds | apply keeps_may; kinds | apply keeps_if_eat; [kinds|go|go]
                     | apply keeps_while_eat; [kinds|go] | apply keeps_seq; [go|go] | apply keeps_node; go | apply keeps_if_at; [kind_list | apply (keeps_weak any); [exact (fun _ _ => I) | go] | go] | assumption ].
    Lemma keeps_exprs : keeps any (exprs expr f).
    Proof. unfold exprs. go. Qed.
    Lemma keeps_params : forall g, keeps any (params g).
    Proof.
      induction g as [| g IH]; [intros s ys trees s' _ _ E; discriminate|]. change (params (S g)) with (if_eat UComma (if_eat UDotDotDot nop (want UIdentifier ;; params g)) nop). go.
    Qed.
    Lemma keeps_body : keeps any (body block f).
    Proof. pose proof (keeps_params f). unfold body. go. Qed.
    Lemma keeps_plain : keeps any (plain expr f).
    Proof.
      intros s ys trees s' S _ E. unfold plain in E. destruct (expr 0 s) as [s1|] eqn:E1; [|discriminate]. destruct (He 0 s ys trees s1 S I E1) as (ys1 & new1 & S1 & K1). pose proof (sits_sink _ _ _ _ S) as L.
      assert (X : forall kind a s2, keeps any a -> dropped (node_at (fun _ => checkpoint s) kind a) s1 = Some s2 -> exists ys2 new2, sits toks s2 ys2 (trees ++ new2) /\ kept s ys s2 ys2 new2).
      { intros kind a s2 Ka D. unfold dropped, node_at in D. destruct (a s1) as [s3|] eqn:E3; [|discriminate]. destruct (Ka s1 ys1 _ s3 S1 I E3) as (ys3 & new3 & S3 & K3). rewrite <- app_assoc in S3. pose proof (kept_trans _ _ _ _ _ _ _ _ K1 K3) as K. unfold checkpoint in D. rewrite L in D. destruct (finish_at s3 _ kind) as [[it s4]|] eqn:F; [|discriminate]. injection D as <-.
        destruct (finish_kept s s3 ys3 trees _ kind it s4 _ S3 F) as (Kf & S4 & _). exists ys3, [snd it]. split; [exact S4 | now apply Kf]. }
      assert (M : forall s2, (exists ys2 new2, sits toks s2 ys2 (trees ++ new2) /\ kept s ys s2 ys2 new2) -> may USemicolon s2 = Some s' -> exists ys2 new2, sits toks s' ys2 (trees ++ new2) /\ kept s ys s' ys2 new2).
      { intros s2 (ys2 & new2 & S2 & K2) Em. assert (Ks : keeps any (may USemicolon)) by go. destruct (Ks s2 ys2 _ s' S2 I Em) as (ys3 & new3 & S3 & K3). exists ys3, (new2 ++ new3). rewrite app_assoc. split; [exact S3 | exact (kept_trans _ _ _ _ _ _ _ _ K2 K3)]. }
      pose proof keeps_exprs as Kx. destruct (at_kind s1 UComma || at_kind s1 UEq).
      - destruct (dropped _ s1) as [s2|] eqn:D; [|discriminate]. apply (M s2); [|exact E]. apply (X _ _ s2) in D; [exact D|]. go.
      - destruct (dropped _ s1) as [s2|] eqn:D; [|discriminate]. apply (M s2); [|exact E]. apply (X _ _ s2) in D; [exact D|]. go.
    Qed.
    Lemma keeps_statement : keeps any (statement expr block f).
    Proof.
      intros s ys trees s' S _ E. unfold statement in E. revert E. set (k := match peek_kind s with Some k => k | None => UEof end). pose proof keeps_exprs as Kx. pose proof keeps_body as Kb. pose proof keeps_plain as Kp.
      repeat match goal with |- context [if k =? ?x then _ else _] => destruct (k =? x); [intros E; refine ((_ : keeps any _) s ys trees s' S I E); clear - He Hb Kx Kb Hfit|] end.
      - unfold local. go.
      - unfold if_. go.
      - unfold while_. go.
      - unfold for_. go.
      - unfold repeat_. go.
      - unfold function. go.
      - unfold return_. go.
      - unfold break. go.
      - unfold do_. go.
      - unfold goto. go.
      - unfold label. go.
      - intros E. exact (Kp s ys trees s' S I E).
    Qed.
    Lemma keeps_field : keeps any (field expr).
    Proof.
      unfold field. change (keeps any (if_eat ULeftBracket (expr 0 ;; want URightBracket ;; want UEq ;; expr 0) (fun s => if at_kind s UIdentifier && match peek_non_trivia_at lua_ign s 1 with Some t => tk_kind t =? UEq | None => false end then (lua_bump ;; want UEq ;; expr 0) s else expr 0 s))).
      apply keeps_if_eat; [kinds | go |]. intros s ys trees s' S _ E. destruct (at_kind s UIdentifier) eqn:A; cbn [andb] in E.
      - destruct (match peek_non_trivia_at lua_ign s 1 with Some t => tk_kind t =? UEq | None => false end); [|exact (He 0 s ys trees s' S I E)].
        assert (K : keeps not_eof (lua_bump ;; want UEq ;; expr 0)) by (apply keeps_seq; [apply keeps_bump | go]). apply (K s ys trees s' S); [|exact E]. now apply (at_not_eof s UIdentifier).
      - exact (He 0 s ys trees s' S I E).
    Qed.
    Lemma keeps_fields : forall g, keeps any (fields expr g).
    Proof.
      pose proof keeps_field as Kf. induction g as [| g IH]; intros s ys trees s' S _ E; [discriminate|]. cbn [fields] in E. destruct (_ && _); [|injection E as <-; exists ys, []; rewrite app_nil_r; split; [exact S | apply kept_refl]].
      refine ((_ : keeps any _) s ys trees s' S I E). go.
    Qed.
    Lemma keeps_table : keeps_item any (table expr f).
    Proof. pose proof (keeps_fields f). unfold table. apply keeps_node_at. go. Qed.
    Lemma keeps_primary : keeps_item any (primary_ expr block f).
    Proof.
      intros s ys trees it s' S _. unfold primary_. assert (P : forall k, k <> UEof -> match peek_kind s with Some k => k | None => UEof end = k -> not_eof s) by (intros k N Q; unfold not_eof; intros Z; rewrite Z in Q; congruence). set (k := match peek_kind s with Some k => k | None => UEof end) in *. pose proof keeps_body as Kb.
      destruct (existsb (Nat.eqb k) [UNil; _; _; _; _; _]) eqn:B.
      { apply existsb_exists in B. destruct B as (x & Ix & B). apply Nat.eqb_eq in B. apply (keeps_node_at not_eof ULiteralExpr lua_bump keeps_bump s ys trees it s' S). apply (P x); [|exact B]. intros ->. revert Ix. clear. kind_list. }
      destruct (Nat.eqb_spec k UIdentifier) as [Q | _]; [apply (keeps_node_at not_eof UIdentifierExpr lua_bump keeps_bump s ys trees it s' S); now apply (P UIdentifier)|].
      destruct (Nat.eqb_spec k UFunction) as [Q | _]; [apply (keeps_node_at not_eof UFunctionExpr _ (keeps_seq _ _ _ keeps_bump Kb) s ys trees it s' S); now apply (P UFunction)|].
      destruct (Nat.eqb_spec k ULeftParen) as [Q | _].
      { assert (K : keeps not_eof (lua_bump ;; expr 0 ;; want URightParen)) by (apply keeps_seq; [apply keeps_bump | go]). apply (keeps_node_at not_eof UParenthesizedExpr _ K s ys trees it s' S). now apply (P ULeftParen). }
      destruct (Nat.eqb_spec k ULeftBrace) as [_ | _]; [exact (keeps_table s ys trees it s' S I)|]. clear Kb.
      set (a := if existsb _ _ then nop else _). assert (K : forall s0, expected s = s0 -> keeps (fun s1 => s1 = s0) a).
      { intros s0 <- s1 ys1 trees1 s2 S1 -> E. unfold a in E. destruct (existsb (Nat.eqb k) [URightParen; _; _; _; _; _; _; _; _]); [exact (keeps_nop _ _ _ _ S1 I E)|]. destruct (ps_not_at_end s); [|exact (keeps_nop _ _ _ _ S1 I E)]. injection E as <-. apply (bump_kept (expected s) ys1 trees1 S1).
        destruct (peek_kind s) as [x|] eqn:Px; [|left; unfold not_eof; change (peek_kind (expected s)) with (peek_kind s); congruence]. destruct (Nat.eq_dec x UEof) as [-> | N]; [|left; unfold not_eof; change (peek_kind (expected s)) with (peek_kind s); congruence].
        right. cbn [expected push_error ps_errs]. apply in_or_app. right. rewrite (eof_here s ys trees S Px). now left. }
      intros E. destruct (keeps_node_at _ UError a (K (expected s) eq_refl) (expected s) ys trees it s' S eq_refl E) as (ys' & l & id & S' & K' & R). exists ys', l, id. split; [exact S'|]. split; [|exact R]. exact (kept_trans _ _ _ _ [] _ _ _ (error_kept s ys trees _ _ S) K').
    Qed.
    Lemma keeps_prefix : keeps_item any (lua_prefix expr block f).
    Proof.
      intros s ys trees it s' S _. unfold lua_prefix. set (k := match peek_kind s with Some k => k | None => UEof end). destruct (existsb (Nat.eqb k) _) eqn:B; [|exact (keeps_primary s ys trees it s' S I)].
      apply existsb_exists in B. destruct B as (x & Ix & B). apply Nat.eqb_eq in B. refine (keeps_node_at any UUnaryExpr _ _ s ys trees it s' S I). apply keeps_seq; [|apply He]. apply keeps_want. rewrite B. intros ->. revert Ix. clear. kind_list.
    Qed.
    Lemma keeps_arguments : keeps any (arguments expr f).
    Proof.
      pose proof keeps_exprs as Kx. pose proof (keeps_dropped _ _ keeps_table) as Kt. pose proof keeps_expected as Ke. pose proof keeps_bump as Ku. unfold arguments. apply keeps_if_eat; [kinds | go |]. apply keeps_if_at; [kind_list | now apply (keeps_weak any) |]. apply keeps_if_at; [kind_list | exact Ku | exact Ke].
    Qed.
    (** [left] is the last tree *)
    Definition last_is (s : pstate) (left : item) : Prop := exists l id, fst left = Some id /\ ps_sink s = l ++ [left].
    Lemma before_last s ys trees left id : sits toks s ys (trees ++ [snd left]) -> last_is s left -> fst left = Some id -> checkpoint_before s id = (0, length trees).
    Proof.
      intros S (l & i & Id & L) Q. assert (i = id) as -> by congruence. unfold checkpoint_before. rewrite L, (find_last_end id l left Q). pose proof (sits_sink _ _ _ _ S) as X. rewrite L, !app_length in X. cbn [length] in X. cbn. f_equal. lia.
    Qed.
    Lemma infix_keeps left min s ys trees o s' : sits toks s ys (trees ++ [snd left]) -> last_is s left -> lua_infix expr f left min s = Some (o, s') ->
      match o with
      | None => s' = s
      | Some it => exists ys' new, sits toks s' ys' (trees ++ [snd it]) /\ kept s ys s' ys' new /\ yield (snd it) = yield (snd left) ++ flat_map yield new /\ last_is s' it
      end.
    Proof.
      intros S L E. unfold lua_infix in E. destruct (peek_kind s) as [k|] eqn:Pk; [|injection E as <- <-; reflexivity]. destruct (lua_table k) as [[prec a]|] eqn:T; [|injection E as <- <-; reflexivity]. destruct (prec <? min); [injection E as <- <-; reflexivity|]. destruct (fst left) as [id|] eqn:Id; [|discriminate].
      assert (N : not_eof s). { unfold not_eof. rewrite Pk. intros Q. injection Q as ->. discriminate. } assert (Nk : k <> UEof). { unfold not_eof in N. rewrite Pk in N. congruence. }
      assert (X : forall kind b it s2, keeps not_eof b -> node_at (fun s0 => checkpoint_before s0 id) kind b s = Some (it, s2) -> exists ys' new, sits toks s2 ys' (trees ++ [snd it]) /\ kept s ys s2 ys' new /\ yield (snd it) = yield (snd left) ++ flat_map yield new /\ last_is s2 it).
      { intros kind b it s2 Kb D. unfold node_at in D. destruct (b s) as [s1|] eqn:E1; [|discriminate]. destruct (Kb s ys _ s1 S N E1) as (ys1 & new & S1 & K1). rewrite (before_last s ys trees left id S L Id) in D. rewrite <- app_assoc in S1. destruct (finish_kept s s1 ys1 trees _ kind it s2 0 S1 D) as (_ & S2 & G & l & i & Ii & Li). exists ys1, new. split; [exact S2|]. split.
        - destruct K1 as (Y & Ee & O). split; [exact Y|]. unfold finish_at in D. destruct (_ <? _); [discriminate|]. destruct (new_node _ _); [|discriminate]. injection D as <- <-. now split.
        - split; [rewrite G; reflexivity | now exists l, i]. }
      pose proof (keeps_weak any not_eof _ (fun _ _ => I) keeps_arguments) as Ka. destruct ((k =? UDot) || (k =? UColon)).
      { destruct (node_at _ UMemberExpr _ s) as [[it s2]|] eqn:D; [|discriminate]. injection E as <- <-. apply (X UMemberExpr (lua_bump ;; want UIdentifier)); [|exact D]. apply keeps_seq; [apply keeps_bump | go]. }
      destruct (k =? ULeftBracket).
      { destruct (node_at _ UIndexExpr _ s) as [[it s2]|] eqn:D; [|discriminate]. injection E as <- <-. apply (X UIndexExpr (lua_bump ;; expr 0 ;; want URightBracket)); [|exact D]. apply keeps_seq; [apply keeps_bump | go]. }
      destruct (existsb _ _).
      { destruct (node_at _ UCallExpr _ s) as [[it s2]|] eqn:D; [|discriminate]. injection E as <- <-. now apply (X UCallExpr (arguments expr f)). }
      destruct (next_prec prec a) as [np|]; [|discriminate]. destruct (node_at _ UBinaryExpr _ s) as [[it s2]|] eqn:D; [|discriminate]. injection E as <- <-. apply (X UBinaryExpr (want k ;; expr np)); [|exact D]. apply keeps_seq; [|apply (He np)]. apply (keeps_weak any); [exact (fun _ _ => I) | now apply keeps_want].
    Qed.
    Lemma loop_keeps : forall g left min s ys trees s', sits toks s ys (trees ++ [snd left]) -> last_is s left -> pratt_loop expr f g left min s = Some s' ->
      exists ys' new it, sits toks s' ys' (trees ++ [it]) /\ kept s ys s' ys' new /\ yield it = yield (snd left) ++ flat_map yield new.
    Proof.
      induction g as [| g IH]; intros left min s ys trees s' S L E; [discriminate|]. cbn [pratt_loop] in E. destruct (lua_infix expr f left min s) as [[[it|] s1]|] eqn:F; [| |discriminate].
      - destruct (infix_keeps left min s ys trees _ s1 S L F) as (ys1 & new1 & S1 & K1 & Y1 & L1). destruct (IH it min s1 ys1 trees s' S1 L1 E) as (ys2 & new2 & it2 & S2 & K2 & Y2). exists ys2, (new1 ++ new2), it2. split; [exact S2|]. split; [exact (kept_trans _ _ _ _ _ _ _ _ K1 K2)|]. now rewrite Y2, Y1, flat_map_app, app_assoc.
      - pose proof (infix_keeps left min s ys trees _ s1 S L F) as ->. injection E as <-. exists ys, [], (snd left). split; [exact S|]. split; [apply kept_refl | cbn; now rewrite app_nil_r].
    Qed.
    Lemma keeps_pratt min : keeps any (lua_pratt expr block f min).
    Proof.
      intros s ys trees s' S _ E. unfold lua_pratt in E. destruct (lua_prefix expr block f s) as [[it s1]|] eqn:F; [|discriminate]. destruct (keeps_prefix s ys trees it s1 S I F) as (ys1 & l & id & S1 & K1 & Id & L). assert (L1 : last_is s1 it) by now exists l, id.
      destruct (loop_keeps f it min s1 ys1 trees s' S1 L1 E) as (ys2 & new2 & it2 & S2 & K2 & Y2). exists ys2, [it2]. split; [exact S2|]. destruct (kept_trans _ _ _ _ _ _ _ _ K1 K2) as (Y & R). split; [|exact R]. rewrite <- Y. cbn [flat_map app]. now rewrite Y2, app_nil_r.
    Qed.
  End Grammar.

  Lemma lua_keeps : forall f what, keeps any (lua f what).
  Proof.
    induction f as [| f IH]; intros what; [intros s ys trees s' _ _ E; discriminate|]. cbn [lua]. destruct what as [min|].
    - apply keeps_pratt; intros; apply IH.
    - apply keeps_while_not, keeps_statement; intros; apply IH.
  Qed.
  Lemma while_not_done ks a : forall f s s', while_not f ks a s = Some s' -> ps_not_at_end s' && negb (existsb (at_kind s') ks) = false.
  Proof. induction f as [| f IH]; intros s s' E; [discriminate|]. cbn [while_not] in E. destruct (_ && _) eqn:C; [|now injection E as <-]. unfold seq in E. destruct (a s); [|discriminate]. exact (IH _ _ E). Qed.
End Keep.

(** ** Every parse that ends *)
Definition is_ign (p : piece) : bool := match fst p with Some k => lua_ign k | None => false end.
Lemma piece_kind k s r : lua_piece k s r -> exists k0, k = Some k0 /\ k0 <> UEof.
Proof.
  destruct 1 as [| | | | | | | | | | | c s r k _ _ K | s k r I _ |]; eexists; (split; [reflexivity|]); try discriminate.
  - intros ->. destruct K as [K | [_ K]]; [|discriminate]. cbn in K. repeat (destruct K as [K | K]; [discriminate|]). exact K.
  - intros ->. cbn in I. repeat (destruct I as [I | I]; [discriminate|]). exact I.
Qed.
Lemma cut_kinds cs ps : cut lua_piece cs ps -> Forall (fun p => exists k, fst p = Some k /\ k <> UEof) ps.
Proof. induction 1 as [| k s r ps _ P _ IH]; constructor; [exact (piece_kind _ _ _ P) | exact IH]. Qed.
Lemma spans_kinds ps : Forall (fun p => exists k, fst p = Some k /\ k <> UEof) ps -> forall off, Forall (fun t => tk_kind t <> UEof) (spans off ps).
Proof.
  induction 1 as [| [k s] r (k0 & E & N) _ IH]; intros off; [constructor|]. cbn [fst] in E. subst k. cbn [spans app]. constructor; [exact N | apply IH].
Qed.
Lemma split_ign ps : exists w qs, ps = w ++ qs /\ Forall (fun p => is_ign p = true) w /\ (forall p, hd_error qs = Some p -> is_ign p = false).
Proof.
  induction ps as [| p ps (w & qs & -> & F & H)]; [exists [], []; repeat split; [constructor | discriminate]|]. destruct (is_ign p) eqn:I.
  - exists (p :: w), qs. split; [reflexivity|]. split; [now constructor | exact H].
  - exists [], (p :: w ++ qs). split; [reflexivity|]. split; [constructor|]. intros q E. now injection E as <-.
Qed.
Lemma ynext_pieces w qs : Forall (fun p => is_ign p = true) w -> (forall p, hd_error qs = Some p -> exists k, fst p = Some k /\ lua_ign k = false) ->
  ynext lua_ign (flat_map piece_yield (w ++ qs) ++ [(UEof, 0)]) = flat_map piece_yield qs ++ [(UEof, 0)].
Proof.
  intros F H. induction F as [| [k s] w I _ IH]; cbn [app].
  - destruct qs as [| [k s] qs]; [reflexivity|]. destruct (H _ eq_refl) as (k0 & E & I). cbn [fst] in E. subst k. cbn [flat_map piece_yield fst snd app ynext]. now rewrite I.
  - unfold is_ign in I. cbn [fst] in I. destruct k as [k|]; [|discriminate]. cbn [flat_map piece_yield fst snd app ynext]. rewrite I. exact IH.
Qed.

Section Text.
  Variable (cs : list Z) (ps : list piece).
  Hypothesis Sc : Forall is_scalar cs.
  Hypothesis Md : mild cs.
  Hypothesis Len : (Z.of_nat (length (encode cs)) < 2 ^ 32)%Z.
  Hypothesis C : cut lua_piece cs ps.
  Let n := length (encode cs).
  Let toks := spans 0 ps ++ [Token UEof n n].

  Lemma toks_lexed : lua_lex (encode cs) = Some toks.
  Proof.
    destruct (LuaLexProofs.lua_lex_cut cs Sc Md) as (ps' & C' & E). rewrite E. unfold toks, n. now rewrite (cut_unique lua_piece cs ps LuaLexProofs.lua_pieces_unique C ps' C').
  Qed.
  Lemma toks_fit : (Z.of_nat (toklen toks) < 2 ^ 32)%Z.
  Proof. apply (spans_fit cs); [now apply (cut_text lua_piece) | exact Len]. Qed.
  Lemma toks_yield : map tok_yield toks = flat_map piece_yield ps ++ [(UEof, 0)].
  Proof. unfold toks. rewrite map_app, spans_yields. unfold tok_yield. cbn [map tk_kind tk_start tk_end]. now rewrite Nat.sub_diag. Qed.
  Lemma start_sits w qs : ps = w ++ qs -> Forall (fun p => is_ign p = true) w -> (forall p, hd_error qs = Some p -> is_ign p = false) ->
    exists trees, sits toks (ps_new lua_ign toks n []) (flat_map piece_yield qs ++ [(UEof, 0)]) trees /\ ps_errs (ps_new lua_ign toks n []) = [].
  Proof.
    intros E F H. destruct (sits_new lua_ign toks toks_fit n []) as [S Er]. rewrite toks_yield, E, ynext_pieces in S; [eexists; split; [exact S | exact Er] | exact F |]. intros p Hp. pose proof (cut_kinds cs ps C) as K. rewrite E, Forall_app in K. destruct K as [_ K]. destruct qs as [| q qs]; [discriminate|]. injection Hp as ->. inversion K as [| ? ? (k & Ek & _) _]; subst. exists k. split; [exact Ek|]. specialize (H p eq_refl). unfold is_ign in H. now rewrite Ek in H.
  Qed.

  Lemma tree_whole fuel root errs : lua_tree fuel (encode cs) = Some (root, errs) ->
    exists w qs, ps = w ++ qs /\ Forall (fun p => is_ign p = true) w /\ (forall p, hd_error qs = Some p -> is_ign p = false) /\
      yield root = flat_map piece_yield qs ++ [(UEof, 0)] /\ In (0, n) errs.
  Proof.
    unfold lua_tree. rewrite toks_lexed. fold n. destruct (split_ign ps) as (w & qs & E & F & H). destruct (start_sits w qs E F H) as (trees & S & Er). set (s0 := ps_new lua_ign toks n []) in *. unfold lua_root. intros R.
    destruct (node_at _ _ _ s0) as [[it s1]|] eqn:N; [|discriminate]. injection R as <- <-. exists w, qs. split; [exact E|]. split; [exact F|]. split; [exact H|].
    pose proof (spans_kinds ps (cut_kinds cs ps C) 0) as Hno. pose proof toks_fit as Hf. set (a := while_not fuel [] (statement (fun min => lua fuel (Some min)) (lua fuel None) fuel)) in *.
    assert (K : keeps toks n any a) by (apply (keeps_while_not toks n), (keeps_statement toks n Hf); intros; apply (lua_keeps toks (spans 0 ps) n Hf eq_refl Hno)).
    unfold node_at in N. destruct (a s0) as [s2|] eqn:A; [|discriminate]. destruct (K s0 _ trees s2 S I A) as (ys & new & S2 & Y & _ & O). assert (ys = []) as ->.
    { pose proof (while_not_done _ _ _ _ _ A) as D. cbn [existsb negb] in D. rewrite andb_true_r, (sits_end _ _ _ _ S2) in D. now destruct ys. }
    rewrite app_nil_r in Y. unfold checkpoint in N. rewrite (sits_sink _ _ _ _ S) in N. destruct (sits_finish lua_ign toks Hf s2 [] trees new (ps_index s0) USourceFile S2) as (m & s3 & F3 & _ & Er3). rewrite F3 in N. injection N as <- <-. cbn [snd]. split; [rewrite <- Y; reflexivity|]. rewrite Er3.
    destruct O as [(y & [] & _) | O]; [|exact O]. left. exists (UEof, 0). split; [|reflexivity]. apply in_or_app. right. now left.
  Qed.

  (** ** Where the parser stays *)
  Definition stuck_at : list nat := closers.
  Ltac each I := cbn in I; repeat (destruct I as [<- | I]; [reflexivity|]); contradiction.
  Lemma stuck_expr fuel min s k m ys trees s' : In k stuck_at -> sits toks s ((k, m) :: ys) trees -> lua fuel (Some min) s = Some s' -> exists t, sits toks s' ((k, m) :: ys) (trees ++ [t]).
  Proof.
    intros I S E. pose proof toks_fit as Hf. destruct fuel as [| fuel]; [discriminate|]. cbn [lua] in E. unfold lua_pratt, lua_prefix, primary_ in E. rewrite (peek_sits toks s _ _ S) in E. cbn [hd_error option_map fst] in E.
    assert (F : exists it s1, node_at checkpoint UError nop (expected s) = Some (it, s1) /\ sits toks s1 ((k, m) :: ys) (trees ++ [snd it])).
    { unfold node_at, nop, checkpoint. change (ps_sink (expected s)) with (ps_sink s). rewrite (sits_sink _ _ _ _ S). assert (S0 : sits toks (expected s) ((k, m) :: ys) (trees ++ [])) by (rewrite app_nil_r; exact S). destruct (sits_finish lua_ign toks Hf (expected s) _ trees [] (ps_index (expected s)) UError S0) as (i & s1 & F1 & S1 & _). now exists (Some i, gnode UError []), s1. }
    destruct F as (it & s1 & F & S1).
    assert (P : pratt_loop (fun min => lua fuel (Some min)) fuel fuel it min s1 = Some s').
    { assert (B1 : existsb (Nat.eqb k) [UMinus; UNot; UHash; UTilde] = false) by each I. assert (B2 : existsb (Nat.eqb k) [UNil; UFalse; UTrue; UNumber; UString; UDotDotDot] = false) by each I. assert (B3 : (k =? UIdentifier) = false) by each I. assert (B4 : (k =? UFunction) = false) by each I. assert (B5 : (k =? ULeftParen) = false) by each I. assert (B6 : (k =? ULeftBrace) = false) by each I.
      assert (B7 : existsb (Nat.eqb k) [URightParen; URightBrace; URightBracket; UComma; USemicolon; UEnd; UElse; UElseif; UUntil] = true) by each I. rewrite B1, B2, B3, B4, B5, B6, B7, F in E. exact E. }
    destruct fuel as [| fuel']; [discriminate|]. cbn [pratt_loop] in P. unfold lua_infix in P. rewrite (peek_sits toks s1 _ _ S1) in P. cbn [hd_error option_map fst] in P. assert (T : lua_table k = None) by each I. rewrite T in P. injection P as <-. now exists (snd it).
  Qed.
  Lemma stuck_statement fuel g s k m ys trees s' : In k stuck_at -> sits toks s ((k, m) :: ys) trees ->
    statement (fun min => lua fuel (Some min)) (lua fuel None) g s = Some s' -> exists trees', sits toks s' ((k, m) :: ys) trees'.
  Proof.
    intros I S. pose proof toks_fit as Hf. unfold statement. rewrite (peek_sits toks s _ _ S). cbn [hd_error option_map fst]. intros E.
    assert (P : plain (fun min => lua fuel (Some min)) g s = Some s') by (cbn in I; repeat (destruct I as [<- | I]; [exact E|]); contradiction). clear E. unfold plain in P.
    destruct (lua fuel (Some 0) s) as [s1|] eqn:E1; [|discriminate]. destruct (stuck_expr fuel 0 s k m ys trees s1 I S E1) as (t & S1). rewrite !(sits_at _ _ _ _ _ S1) in P. cbn [fst] in P. assert (N : (k =? UComma) || (k =? UEq) = false) by each I. rewrite N in P. unfold dropped, node_at, nop, checkpoint in P. rewrite (sits_sink _ _ _ _ S) in P.
    destruct (sits_finish lua_ign toks Hf s1 _ trees _ (ps_index s) UExprStmt S1) as (i & s3 & F3 & S3 & _). rewrite F3 in P. cbn [option_map snd] in P. unfold may, eat in P. rewrite (sits_at _ _ _ _ _ S3) in P. cbn [fst] in P. assert (N' : (k =? USemicolon) = false) by each I. rewrite N' in P. injection P as <-. eexists. exact S3.
  Qed.
  Lemma stuck_loop fuel k m ys : In k stuck_at -> forall g s trees, sits toks s ((k, m) :: ys) trees -> while_not g [] (statement (fun min => lua fuel (Some min)) (lua fuel None) fuel) s = None.
  Proof.
    intros I. induction g as [| g IH]; intros s trees S; [reflexivity|]. cbn [while_not]. rewrite (sits_end _ _ _ _ S). cbn [existsb negb andb]. unfold seq. destruct (statement _ _ _ s) as [s1|] eqn:E; [|reflexivity]. destruct (stuck_statement fuel fuel s k m ys trees s1 I S E) as (trees' & S'). exact (IH s1 trees' S').
  Qed.
  Lemma tree_stuck fuel w k x qs : ps = w ++ (Some k, x) :: qs -> Forall (fun p => is_ign p = true) w -> In k stuck_at -> lua_tree fuel (encode cs) = None.
  Proof.
    intros E F I. unfold lua_tree. rewrite toks_lexed. fold n. assert (H : forall p, hd_error ((Some k, x) :: qs) = Some p -> is_ign p = false). { intros p Q. injection Q as <-. unfold is_ign. cbn [fst]. each I. }
    destruct (start_sits w _ E F H) as (trees & S & _). cbn [flat_map piece_yield fst snd app] in S. unfold lua_root, node_at. now rewrite (stuck_loop fuel k _ _ I fuel _ _ S).
  Qed.
End Text.

Lemma ign_trivia p : is_ign p = true <-> trivia p.
Proof.
  unfold is_ign, trivia, lua_ign. destruct (fst p) as [k|]; [|split; [discriminate | cbn; intuition discriminate]]. cbn [existsb In]. rewrite !orb_true_iff, !Nat.eqb_eq. split; [intros [-> | [-> | [-> | H]]]; auto; discriminate | intros [E | [E | [E | []]]]; injection E as <-; auto].
Qed.
