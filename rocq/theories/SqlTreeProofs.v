(** The trees of SQL programs. *)
From Verif Require Import Base Utf8 Utf8Facts LexModel LexSpec TreeModel TreeSpec TreeProofs ParserModel ParserSpec ParserProofs JsonLangSpec LangModel LangSpec LangLexProofs LangParseProofs SqlModel SqlSpec SqlProofs.
From Verif Require SqlLexProofs LuaProofs.

Notation ysof := (flat_map piece_yield).
Lemma triviab p : trivia p <-> match fst p with Some k => sql_ign k = true | None => True end.
Proof.
  unfold trivia. destruct (fst p) as [k|]; [|split; [easy | now left]]. rewrite ign_spec. cbn [In]. split.
  - intros [E | [E | [E | [E | [E | [E | []]]]]]]; try discriminate E; injection E as <-; tauto.
  - intros [<- | [<- | [<- | [<- | [<- | []]]]]]; right; tauto.
Qed.
Lemma settled_ys ps tail : settled ps -> ysettled tail -> ysettled (ysof ps ++ tail).
Proof.
  intros H T. destruct ps as [| [k x] ps]; [exact T|]. specialize (H _ eq_refl). rewrite triviab in H. cbn [fst] in H. destruct k as [k|]; [|now destruct H]. cbn. now apply not_true_is_false.
Qed.
Lemma trivia_run w tail : Forall trivia w -> ysettled tail -> ynext sql_ign (ysof w ++ tail) = tail /\ map yleaf (ytrivia sql_ign (ysof w ++ tail)) = leaves w.
Proof.
  intros F T. induction F as [| [k x] w H _ [IH1 IH2]].
  - cbn [flat_map app]. destruct tail as [| y tail]; [now split|]. cbn [ynext ytrivia]. unfold ysettled in T. rewrite T. now split.
  - rewrite triviab in H. cbn [fst] in H. destruct k as [k|]; [|exact (conj IH1 IH2)]. cbn [flat_map piece_yield fst snd app ynext ytrivia]. rewrite H. split; [exact IH1|]. cbn [map]. rewrite IH2. reflexivity.
Qed.
Lemma groups_head l ps t : groups l ps t -> exists k x ps', ps = (Some k, x) :: ps' /\ sql_ign k = false.
Proof.
  induction 1 as [l k x w I _ | l x w ps t y w' _ _ _ _ | l k x w N _ _ | l p k x w ps1 t1 ps2 t2 _ _ _ _ (k1 & x1 & ps' & -> & N) _ _].
  - exists k, x, w. split; [reflexivity|]. destruct I as [<- | [<- | []]]; reflexivity.
  - eexists _, _, _. split; [reflexivity|]. reflexivity.
  - exists k, x, w. split; [reflexivity|]. rewrite triviab in N. cbn [fst] in N. now apply not_true_is_false.
  - eexists k1, x1, _. split; [reflexivity | exact N].
Qed.
Lemma groups_settled l ps t : groups l ps t -> settled ps.
Proof. intros G. destruct (groups_head l ps t G) as (k & x & ps' & -> & N). intros p E. injection E as <-. rewrite triviab. cbn [fst]. congruence. Qed.
Lemma items_settled ps ts : items ps ts -> settled ps.
Proof.
  assert (H : forall ps t r, groups 0 ps t -> settled (ps ++ r)). { intros p t r G. pose proof (groups_settled _ _ _ G) as S. destruct (groups_head _ _ _ G) as (k & x & p' & -> & _). intros q E. exact (S q E). }
  intros [| p t x w rest ts0 G _ _ _ | p t rest ts0 G _ _ _]; [intros q E; discriminate | exact (H _ _ _ G) | exact (H _ _ _ G)].
Qed.
Lemma level_read k p : level k p -> sql_level k = Some p /\ sql_ign k = false.
Proof. intros [| | k0 I | k0 I | k0 I]; [now split | now split | | |]; cbn in I; repeat (destruct I as [<- | I]; [now split|]); destruct I. Qed.
Lemma level_operator k p : sql_level k = Some p -> In k operators.
Proof.
  unfold sql_level. destruct (Nat.eqb_spec k QOr) as [-> |]; [intros _; vm_compute; tauto|]. destruct (Nat.eqb_spec k QAnd) as [-> |]; [intros _; vm_compute; tauto|].
  repeat match goal with |- context [if existsb (Nat.eqb k) ?l then _ else _] => destruct (existsb (Nat.eqb k) l) eqn:?E end; intros H; try discriminate H; apply existsb_exists in E || apply existsb_exists in E0 || apply existsb_exists in E1;
  match goal with X : exists x, _ |- _ => destruct X as (x & I & Q) end; apply Nat.eqb_eq in Q; subst x; cbn [In] in I; unfold operators; cbn [In]; tauto.
Qed.

Definition below (l : nat) (ys : list (nat * nat)) : Prop := forall y r p, ys = y :: r -> sql_level (fst y) = Some p -> p < l.
Definition at_head (k : nat) (ys : list (nat * nat)) : bool := match ys with y :: _ => fst y =? k | [] => false end.
Lemma below_none ys : (forall y r, ys = y :: r -> ~ In (fst y) operators) -> below 0 ys.
Proof. intros H y r p E L. destruct (H y r E). exact (level_operator _ _ L). Qed.
Lemma first_head rest ks y r : first_not ks rest -> settled rest -> ~ In QEof ks -> ysof rest ++ [(QEof, 0)] = y :: r -> ~ In (fst y) ks.
Proof.
  intros F H N E I. destruct rest as [| [k x] rest]; [cbn in E; injection E as <- _; contradiction|]. specialize (H _ eq_refl). rewrite triviab in H. cbn [fst] in H. destruct k as [k|]; [|now apply H]. cbn in E. injection E as <- _. now apply (F k).
Qed.
Lemma head_first ks k rest : first_not ks rest -> settled rest -> In k ks -> ~ In QEof ks -> at_head k (ysof rest ++ [(QEof, 0)]) = false.
Proof.
  intros F H I N. destruct (ysof rest ++ [(QEof, 0)]) as [| y r] eqn:E; [reflexivity|]. cbn [at_head]. apply Nat.eqb_neq. intros E2. apply (first_head rest ks y r F H N E). now rewrite E2.
Qed.

Section Exact.
  Variable toks : list token.
  Hypothesis Hfit : (Z.of_nat (toklen toks) < 2 ^ 32)%Z.
  Notation sits := (sits toks).

  (** from the tokens [ys] to the tokens [ys'], with the trees [new] and [e] diagnostics *)
  Definition does (a : sql_act) (ys ys' : list (nat * nat)) (new : list green) (e : nat) : Prop := forall s trees, sits s ys trees ->
    exists s', a s = Some s' /\ sits s' ys' (trees ++ new) /\ length (ps_errs s') = e + length (ps_errs s).
  Lemma does_nop ys : does sql_nop ys ys [] 0.
  Proof. intros s trees S. exists s. rewrite app_nil_r. now split. Qed.
  Lemma does_seq a b ys ys1 ys2 n1 n2 e1 e2 : does a ys ys1 n1 e1 -> does b ys1 ys2 n2 e2 -> does (a ;> b) ys ys2 (n1 ++ n2) (e1 + e2).
  Proof.
    intros A B s trees S. destruct (A s trees S) as (s1 & E1 & S1 & R1). destruct (B s1 _ S1) as (s2 & E2 & S2 & R2). exists s2. unfold sql_seq. rewrite E1. split; [exact E2|]. split; [now rewrite app_assoc|]. lia.
  Qed.
  Lemma bump_exact k x w tail s trees : Forall trivia w -> ysettled tail -> sits s ((k, length (encode x)) :: ysof w ++ tail) trees -> sits (bump sql_ign s) tail (trees ++ leaf k x :: leaves w) /\ ps_errs (bump sql_ign s) = ps_errs s.
  Proof. intros F T S. destruct (sits_bump sql_ign toks Hfit s _ _ trees S) as [S1 E]. destruct (trivia_run w tail F T) as [-> Q] in S1. rewrite Q in S1. now split. Qed.
  Lemma does_bump k x w tail : Forall trivia w -> ysettled tail -> does sql_bump ((k, length (encode x)) :: ysof w ++ tail) tail (leaf k x :: leaves w) 0.
  Proof. intros F T s trees S. destruct (bump_exact k x w tail s trees F T S) as [S1 E]. exists (bump sql_ign s). split; [reflexivity|]. split; [exact S1 | now rewrite E]. Qed.
  Lemma sits_head s ys trees k : sits s ys trees -> at_kind s k = at_head k ys.
  Proof. apply sits_at. Qed.
  Lemma does_want k x w tail : Forall trivia w -> ysettled tail -> does (sql_want k) ((k, length (encode x)) :: ysof w ++ tail) tail (leaf k x :: leaves w) 0.
  Proof. intros F T s trees S. unfold sql_want, expect, eat. rewrite (sits_head _ _ _ k S). cbn [at_head fst]. rewrite Nat.eqb_refl. exact (does_bump k x w tail F T s trees S). Qed.
  Lemma does_want_no k ys : at_head k ys = false -> does (sql_want k) ys ys [] 1.
  Proof. intros H s trees S. unfold sql_want, expect, eat. rewrite (sits_head _ _ _ k S), H. eexists. split; [reflexivity|]. cbn [snd push_error ps_errs]. rewrite app_nil_r, app_length. split; [exact S | cbn; lia]. Qed.
  Lemma does_may k x w tail : Forall trivia w -> ysettled tail -> does (sql_may k) ((k, length (encode x)) :: ysof w ++ tail) tail (leaf k x :: leaves w) 0.
  Proof. intros F T s trees S. unfold sql_may, eat. rewrite (sits_head _ _ _ k S). cbn [at_head fst]. rewrite Nat.eqb_refl. exact (does_bump k x w tail F T s trees S). Qed.
  Lemma does_may_no k ys : at_head k ys = false -> does (sql_may k) ys ys [] 0.
  Proof. intros H s trees S. unfold sql_may, eat. rewrite (sits_head _ _ _ k S), H. exact (does_nop ys s trees S). Qed.
  Lemma does_if k x w tail a b ys' new e : Forall trivia w -> ysettled tail -> does a tail ys' new e -> does (sql_if k a b) ((k, length (encode x)) :: ysof w ++ tail) ys' (leaf k x :: leaves w ++ new) e.
  Proof.
    intros F T A s trees S. unfold sql_if, eat. rewrite (sits_head _ _ _ k S). cbn [at_head fst]. rewrite Nat.eqb_refl. destruct (bump_exact k x w tail s trees F T S) as [S1 E1]. destruct (A _ _ S1) as (s2 & E2 & S2 & R2). exists s2. split; [exact E2|]. rewrite <- app_assoc in S2. split; [exact S2 | now rewrite <- E1].
  Qed.
  Lemma does_if_no k a b ys ys' new e : at_head k ys = false -> does b ys ys' new e -> does (sql_if k a b) ys ys' new e.
  Proof. intros H B s trees S. unfold sql_if, eat. rewrite (sits_head _ _ _ k S), H. exact (B s trees S). Qed.
  Lemma does_node kind a ys ys' new e : does a ys ys' new e -> does (sql_node kind a) ys ys' [gnode kind new] e.
  Proof.
    intros A s trees S. destruct (A s trees S) as (s1 & E1 & S1 & R1). unfold sql_node, sql_node_at. rewrite E1. unfold checkpoint. rewrite (sits_sink _ _ _ _ S). destruct (sits_finish sql_ign toks Hfit s1 ys' trees new (ps_index s) kind S1) as (i & s2 & F & S2 & Er). rewrite F. exists s2. split; [reflexivity|]. split; [exact S2 | now rewrite Er].
  Qed.

  (** *** Up to a semicolon *)
  Lemma ynext_app r tail : ysettled tail -> ynext sql_ign (r ++ tail) = ynext sql_ign r ++ tail /\ ytrivia sql_ign (r ++ tail) = ytrivia sql_ign r.
  Proof.
    intros T. induction r as [| y r [IH1 IH2]]; cbn [app ynext ytrivia].
    - destruct tail as [| y tail]; [now split|]. cbn [ynext ytrivia]. unfold ysettled in T. now rewrite T.
    - destruct (sql_ign (fst y)); [|now split]. now rewrite IH2.
  Qed.
  Definition yign (y : nat * nat) : bool := sql_ign (fst y).
  Lemma filter_split r : filter yign r = ytrivia sql_ign r ++ filter yign (ynext sql_ign r).
  Proof. induction r as [| y r IH]; [reflexivity|]. cbn [filter ytrivia ynext]. unfold yign at 1. destruct (sql_ign (fst y)) eqn:E; [cbn [app]; now rewrite IH|]. cbn [app filter]. unfold yign at 2. now rewrite E. Qed.
  Lemma ynext_in r y : In y (ynext sql_ign r) -> In y r.
  Proof. induction r as [| z r IH]; [easy|]. cbn [ynext]. destruct (sql_ign (fst z)); [intros I; right; now apply IH | easy]. Qed.
  Lemma until_exact k : forall n ys tail s trees, length (ys ++ tail) <= n -> ysettled ys -> Forall (fun y => fst y <> k) ys -> (tail = [] \/ at_head k tail = true) -> ysettled tail -> sits s (ys ++ tail) trees ->
    let s' := advance_loop sql_ign (fun s => at_kind s k) n s in sits s' tail (trees ++ map yleaf (filter yign ys)) /\ ps_errs s' = ps_errs s.
  Proof.
    induction n as [| n IH]; intros ys tail s trees L Y F H T S.
    - destruct ys; [|cbn in L; lia]. cbn. rewrite app_nil_r. now split.
    - cbn [advance_loop]. rewrite (sits_end _ _ _ _ S), (sits_head _ _ _ k S). destruct ys as [| y ys]; cbn [app] in *.
      + assert (match tail with [] => false | _ :: _ => true end && negb (at_head k tail) = false) as -> by (destruct H as [-> | ->]; [reflexivity | apply andb_false_r]). cbn. rewrite app_nil_r. now split.
      + cbn [at_head]. inversion F as [| ? ? N F']; subst. destruct (Nat.eqb_spec (fst y) k) as [E | _]; [contradiction|]. cbn [negb andb]. destruct (sits_advance toks Hfit s y _ trees S) as [S1 Er]. destruct (ynext_app ys tail T) as [Q1 Q2]. rewrite Q1, Q2 in S1. pose proof (ynext_length sql_ign ys) as Ln. cbn [length] in L. rewrite app_length in L.
        destruct (IH (ynext sql_ign ys) tail _ _ ltac:(rewrite app_length; lia) (ynext_end ys) ltac:(rewrite Forall_forall in *; intros z I; apply F'; now apply ynext_in) H T S1) as [S2 Er2]. split; [|congruence]. cbn [filter]. change (yign y) with (sql_ign (fst y)). unfold ysettled in Y. rewrite Y. rewrite filter_split, map_app, app_assoc. exact S2.
  Qed.
  Lemma does_until k ys tail : ysettled ys -> Forall (fun y => fst y <> k) ys -> (tail = [] \/ at_head k tail = true) -> ysettled tail -> does (sql_until k) (ys ++ tail) tail (map yleaf (filter yign ys)) 0.
  Proof.
    intros Y F H T s trees S. assert (L : length (ys ++ tail) <= length (ps_toks s) - ps_index s). { destruct S as (rest & V & <-). rewrite (sees_length _ _ _ _ V), map_length. lia. }
    destruct (until_exact k _ ys tail s trees L Y F H T S) as [S1 E]. exists (advance_until sql_ign k s). split; [reflexivity|]. split; [exact S1|]. unfold advance_until. rewrite E. reflexivity.
  Qed.
  Lemma stray_leaves body : map yleaf (filter yign (ysof body)) = leaves (filter stray body).
  Proof.
    induction body as [| [k x] body IH]; [reflexivity|]. destruct k as [k|]; [|exact IH]. change (ysof ((Some k, x) :: body)) with ((k, length (encode x)) :: ysof body). cbn [filter]. change (yign (k, length (encode x))) with (sql_ign k). change (stray (Some k, x)) with (sql_ign k). destruct (sql_ign k); [|exact IH]. cbn [map]. rewrite IH. reflexivity.
  Qed.
  Lemma none_ys k body : none_is k body -> Forall (fun y => fst y <> k) (ysof body).
  Proof. intros F. induction F as [| [o x] body N _ IH]; [constructor|]. cbn [flat_map piece_yield fst snd]. destruct o as [o|]; [|exact IH]. constructor; [cbn in *; congruence | exact IH]. Qed.

  (** *** Expressions *)
  Notation last_is := SqlProofs.last_is.
  Definition reached (l : nat) (ps : list piece) (t : green) : Prop := forall f min s rest trees, min <= l -> sits s (ysof ps ++ rest) trees -> ysettled rest -> below (S l) rest -> length (ysof ps ++ rest) < f ->
    exists it s1 g, sql_pratt (sql_expr f) f min s = sql_pratt_loop (sql_expr f) g it min s1 /\ snd it = t /\ last_is s1 it /\ sits s1 rest (trees ++ [t]) /\ length (ps_errs s1) = length (ps_errs s) /\ length rest < g.
  Definition full (l : nat) (ps : list piece) (t : green) : Prop := forall f rest, ysettled rest -> below l rest -> S (length (ysof ps ++ rest)) < f -> does (sql_expr f l) (ysof ps ++ rest) rest [t] 0.
  Lemma reached_full l ps t : reached l ps t -> full l ps t.
  Proof.
    intros R f rest Y B L s trees S. destruct f as [| f]; [lia|]. assert (B' : below (1 + l) rest) by (intros y r p E Q; specialize (B y r p E Q); lia). destruct (R f l s rest trees (le_n l) S Y B' ltac:(lia)) as (it & s1 & g & E & <- & La & S1 & Er & Lg). exists s1. split; [|now split]. cbn [sql_expr]. rewrite E. destruct g as [| g]; [lia|]. cbn [sql_pratt_loop]. unfold sql_infix. rewrite (peek_sits toks _ _ _ S1).
    destruct rest as [| y r]; [reflexivity|]. cbn [hd_error option_map]. destruct (sql_level (fst y)) as [p|] eqn:Lv; [|reflexivity]. specialize (B y r p eq_refl Lv). destruct (Nat.ltb_spec p l); [reflexivity | lia].
  Qed.
  Lemma item_exact kind a ys ys' new : does a ys ys' new 0 -> forall s trees, sits s ys trees -> exists it s1, sql_node_at checkpoint kind a s = Some (it, s1) /\ snd it = gnode kind new /\ last_is s1 it /\ sits s1 ys' (trees ++ [gnode kind new]) /\ length (ps_errs s1) = length (ps_errs s).
  Proof.
    intros A s trees S. destruct (A s trees S) as (s1 & E1 & S1 & R1). unfold sql_node_at. rewrite E1. unfold checkpoint. rewrite (sits_sink _ _ _ _ S). destruct (sits_finish sql_ign toks Hfit s1 ys' trees new (ps_index s) kind S1) as (i & s2 & F & S2 & Er). rewrite F. exists (Some i, gnode kind new), s2. split; [reflexivity|]. split; [reflexivity|]. split; [|split; [exact S2 | now rewrite Er]].
    destruct (LuaProofs.finish_last _ _ _ _ _ F) as [Lk (id & Id)]. eexists _, id. split; [exact Id | exact Lk].
  Qed.
  Lemma operand_reached l ps t : (forall f rest s trees, sits s (ysof ps ++ rest) trees -> ysettled rest -> length (ysof ps ++ rest) < f -> exists it s1, sql_primary (sql_expr f) s = Some (it, s1) /\ snd it = t /\ last_is s1 it /\ sits s1 rest (trees ++ [t]) /\ length (ps_errs s1) = length (ps_errs s)) -> reached l ps t.
  Proof.
    intros H f min s rest trees _ S Y _ L. destruct (H f rest s trees S Y L) as (it & s1 & E & Et & La & S1 & Er). exists it, s1, f. unfold sql_pratt. rewrite E. split; [reflexivity|]. split; [exact Et|]. split; [exact La|]. split; [exact S1|]. split; [exact Er|]. rewrite app_length in L. lia.
  Qed.
  Lemma groups_reached l ps t : groups l ps t -> reached l ps t.
  Proof.
    induction 1 as [l k x w I Fw | l x w ps t y w' Fw G IH Fw' | l k x w N K Fw | l p k x w ps1 t1 ps2 t2 Lp Lv Fw G1 IH1 G2 IH2].
    - apply operand_reached. intros f rest s trees S Y L. cbn [flat_map piece_yield fst snd app] in S. unfold sql_primary. cbn [existsb]. rewrite !(sits_head _ _ _ _ S). cbn [at_head fst].
      destruct (item_exact NExpression sql_bump _ _ _ (does_bump k x w rest Fw Y) s trees S) as (it & s1 & E & R). exists it, s1. split; [|exact R]. destruct I as [<- | [<- | []]]; exact E.
    - apply operand_reached. intros f rest s trees S Y L. assert (Q : ysof ((Some QLeftParen, x) :: w ++ ps ++ (Some QRightParen, y) :: w') ++ rest = (QLeftParen, length (encode x)) :: ysof w ++ ysof ps ++ (QRightParen, length (encode y)) :: ysof w' ++ rest) by (cbn [flat_map piece_yield fst snd app]; rewrite !flat_map_app; cbn [flat_map piece_yield fst snd app]; now rewrite <- !app_assoc).
      rewrite Q in S, L. unfold sql_primary. cbn [existsb]. rewrite !(sits_head _ _ _ _ S). cbn [at_head fst]. cbn [Nat.eqb QLeftParen QIdentifier_ QNumberLiteral QStringLiteral QBooleanLiteral QNullLiteral orb].
      assert (Yp : ysettled ((QRightParen, length (encode y)) :: ysof w' ++ rest)) by reflexivity. assert (Bp : below 0 ((QRightParen, length (encode y)) :: ysof w' ++ rest)) by (apply below_none; intros z r E; injection E as <- _; vm_compute; intuition discriminate).
      assert (Y1 : ysettled (ysof ps ++ (QRightParen, length (encode y)) :: ysof w' ++ rest)) by (apply settled_ys; [exact (groups_settled _ _ _ G) | exact Yp]).
      cbn [length] in L. rewrite (app_length (ysof w)) in L.
      assert (D : does (sql_bump ;> sql_expr f 0 ;> sql_want QRightParen) ((QLeftParen, length (encode x)) :: ysof w ++ ysof ps ++ (QRightParen, length (encode y)) :: ysof w' ++ rest) rest ((leaf QLeftParen x :: leaves w) ++ [t] ++ leaf QRightParen y :: leaves w') (0 + (0 + 0))).
      { eapply does_seq; [exact (does_bump QLeftParen x w _ Fw Y1)|]. eapply does_seq; [exact (reached_full _ _ _ IH f _ Yp Bp ltac:(lia)) | exact (does_want QRightParen y w' rest Fw' Y)]. }
      exact (item_exact NExpression _ _ _ _ D s trees S).
    - apply operand_reached. intros f rest s trees S Y L. cbn [flat_map piece_yield fst snd app] in S. unfold sql_primary. cbn [existsb]. rewrite !(sits_head _ _ _ _ S). cbn [at_head fst].
      assert (Nk : forall k', In k' [QNumberLiteral; QStringLiteral; QBooleanLiteral; QNullLiteral; QLeftParen; QIdentifier_] -> (k =? k') = false) by (intros k' I; apply Nat.eqb_neq; intros ->; contradiction).
      rewrite !Nk by (cbn [In]; tauto). exact (item_exact NErrorNode sql_bump _ _ _ (does_bump k x w rest Fw Y) s trees S).
    - intros f min s rest trees Lm S Y B L. destruct (level_read k p Lv) as [Lk Nk]. assert (Q : ysof (ps1 ++ (Some k, x) :: w ++ ps2) ++ rest = ysof ps1 ++ (k, length (encode x)) :: ysof w ++ ysof ps2 ++ rest) by (rewrite !flat_map_app; cbn [flat_map piece_yield fst snd app]; rewrite flat_map_app, <- !app_assoc; cbn [app]; now rewrite <- !app_assoc).
      rewrite Q in S, L. set (rest1 := (k, length (encode x)) :: ysof w ++ ysof ps2 ++ rest) in *. assert (Y1 : ysettled rest1) by exact Nk. assert (B1 : below (1 + p) rest1) by (intros y r p' E Lv'; injection E as <- _; cbn [fst] in Lv'; assert (p' = p) by congruence; lia).
      destruct (IH1 f min s rest1 trees ltac:(lia) S Y1 B1 L) as (it1 & s1 & g & E1 & T1 & La1 & S1 & Er1 & Lg). assert (Y2 : ysettled (ysof ps2 ++ rest)) by (apply settled_ys; [exact (groups_settled _ _ _ G2) | exact Y]). assert (B2 : below (1 + p) rest) by (intros y r p' E Lv'; specialize (B y r p' E Lv'); lia).
      assert (Ln : length rest1 = 1 + (length (ysof w) + length (ysof ps2 ++ rest))) by (unfold rest1; cbn [length]; rewrite app_length; lia). rewrite app_length in L.
      assert (D : does (sql_want k ;> sql_expr f (1 + p)) rest1 rest ((leaf k x :: leaves w) ++ [t2]) (0 + 0)) by (eapply does_seq; [exact (does_want k x w _ Fw Y2) | exact (reached_full _ _ _ IH2 f rest Y B2 ltac:(lia))]).
      destruct g as [| g]; [lia|]. destruct (D s1 _ S1) as (s2 & E2 & S2 & Er2). pose proof La1 as (lk & id & Id & Lk1). rewrite <- app_assoc in S2. destruct (sits_finish sql_ign toks Hfit s2 rest trees _ 0 (sql_into QExpression) S2) as (i & s3 & F & S3 & Er3).
      rewrite <- T1 in S1. exists (Some i, gnode NDropStatement (t1 :: leaf k x :: leaves w ++ [t2])), s3, g. split; [|split; [reflexivity|]].
      + rewrite E1. cbn [sql_pratt_loop]. unfold sql_infix. rewrite (peek_sits toks _ _ _ S1). unfold rest1 at 1. cbn [hd_error option_map fst]. rewrite Lk. destruct (Nat.ltb_spec p min) as [X | _]; [lia|]. rewrite Id. unfold next_prec. rewrite (proj2 (Nat.ltb_lt p 255) (levels_small _ _ Lk)). unfold sql_node_at. cbn [Nat.add] in E2. rewrite E2, (before_last toks s1 _ trees it1 id S1 La1 Id), F. reflexivity.
      + destruct (LuaProofs.finish_last _ _ _ _ _ F) as [Lk' (id' & Id')]. split; [eexists _, id'; split; [exact Id' | exact Lk']|]. split; [exact S3|]. split; [rewrite Er3; lia|]. rewrite app_length in Ln. lia.
  Qed.
  Lemma does_expr f ps t rest : groups 0 ps t -> ysettled rest -> below 0 rest -> S (length (ysof ps ++ rest)) < f -> does (sql_expr f 0) (ysof ps ++ rest) rest [t] 0.
  Proof. intros G. exact (reached_full _ _ _ (groups_reached _ _ _ G) f rest). Qed.

  (** *** Lists of expressions *)
  Section Loops.
    Variable f : nat.
    Notation expr := (sql_expr f).
    Lemma more_head stops s ys trees : sits s ys trees -> sql_more stops s = match ys with [] => false | _ => true end && negb (existsb (fun k => at_head k ys) stops).
    Proof. intros S. unfold sql_more. rewrite (sits_end _ _ _ _ S). f_equal. f_equal. induction stops as [| k stops IH]; [reflexivity|]. cbn [existsb]. now rewrite (sits_head _ _ _ k S), IH. Qed.
    Definition item_rest (rest : list (nat * nat)) : Prop := ysettled rest /\ forall y r, rest = y :: r -> ~ In (fst y) (QComma :: operators).
    Lemma item_rest_below rest : item_rest rest -> below 0 rest /\ at_head QComma rest = false.
    Proof.
      intros [_ H]. split; [apply below_none; intros y r E I; apply (H y r E); now right|]. destruct rest as [| y r]; [reflexivity|]. cbn [at_head]. apply Nat.eqb_neq. intros E. apply (H y r eq_refl). now left.
    Qed.
    Lemma head_from ps t rest : groups 0 ps t -> first_not [QFrom] ps -> exists y r, ysof ps ++ rest = y :: r /\ (fst y =? QFrom) = false.
    Proof.
      intros G F. destruct (groups_head _ _ _ G) as (k & x & ps' & -> & _). exists (k, length (encode x)), (ysof ps' ++ rest). split; [reflexivity|]. cbn [fst]. apply Nat.eqb_neq. intros ->. apply (F QFrom eq_refl). now left.
    Qed.
    Lemma items_run ps ts : items ps ts -> forall g rest s trees, item_rest rest -> sits s (ysof ps ++ rest) trees -> S (length (ysof ps ++ rest)) < f -> length (ysof ps ++ rest) < g ->
      exists g' s1, sql_while g (sql_more [QFrom]) (expr 0 ;> sql_may QComma) s = sql_while g' (sql_more [QFrom]) (expr 0 ;> sql_may QComma) s1 /\ sits s1 rest (trees ++ ts) /\ length (ps_errs s1) = length (ps_errs s) /\ length rest < g'.
    Proof.
      assert (One : forall p t tail rest' new g s trees, groups 0 p t -> first_not [QFrom] p -> does (sql_may QComma) tail rest' new 0 -> ysettled tail -> below 0 tail -> sits s (ysof p ++ tail) trees -> S (length (ysof p ++ tail)) < f -> length (ysof p ++ tail) < g ->
        exists g' s1, sql_while g (sql_more [QFrom]) (expr 0 ;> sql_may QComma) s = sql_while g' (sql_more [QFrom]) (expr 0 ;> sql_may QComma) s1 /\ sits s1 rest' (trees ++ t :: new) /\ length (ps_errs s1) = length (ps_errs s) /\ length tail < g').
      { intros p t tail rest' new g s trees G F M Y B S L Lg. destruct g as [| g]; [lia|]. destruct (head_from p t tail G F) as (y & r & E & N). exists g. cbn [sql_while]. rewrite (more_head _ _ _ _ S), E. cbn [existsb at_head]. rewrite N. cbn [andb orb negb].
        destruct (does_seq _ _ _ _ _ _ _ _ _ (does_expr f p t tail G Y B L) M s trees S) as (s1 & E1 & S1 & R1). exists s1. unfold sql_seq at 1. rewrite E1. split; [reflexivity|]. split; [exact S1|]. split; [exact R1|]. destruct (groups_head _ _ _ G) as (k & x & p' & -> & _). cbn [flat_map piece_yield fst snd app length] in Lg. rewrite app_length in Lg. lia. }
      induction 1 as [| p t x w rest0 ts0 G F Fw I IH | p t rest0 ts0 G F I IH N]; intros g rest s trees R S L Lg.
      - exists g, s. rewrite app_nil_r. now split.
      - assert (Q : ysof (p ++ (Some QComma, x) :: w ++ rest0) ++ rest = ysof p ++ (QComma, length (encode x)) :: ysof w ++ ysof rest0 ++ rest) by (rewrite flat_map_app; cbn [flat_map piece_yield fst snd app]; rewrite flat_map_app, <- !app_assoc; cbn [app]; now rewrite <- !app_assoc).
        rewrite Q in *. assert (Y0 : ysettled (ysof rest0 ++ rest)) by (apply settled_ys; [exact (items_settled _ _ I) | exact (proj1 R)]). assert (Bt : below 0 ((QComma, length (encode x)) :: ysof w ++ ysof rest0 ++ rest)) by (apply below_none; intros z r E; injection E as <- _; vm_compute; intuition discriminate).
        destruct (One p t _ _ _ g s trees G F (does_may QComma x w _ Fw Y0) eq_refl Bt S L Lg) as (g1 & s1 & E1 & S1 & R1 & L1). cbn [length] in L1. rewrite !app_length in L. cbn [length] in L. rewrite !app_length in L, L1.
        destruct (IH g1 rest s1 _ R S1 ltac:(rewrite app_length; lia) ltac:(rewrite app_length; lia)) as (g2 & s2 & E2 & S2 & R2 & L2). exists g2, s2. rewrite E1, E2. split; [reflexivity|]. split; [|split; [congruence | exact L2]]. rewrite <- app_assoc in S2. exact S2.
      - rewrite flat_map_app, <- app_assoc in *. assert (R0 : item_rest (ysof rest0 ++ rest)).
        { split; [apply settled_ys; [exact (items_settled _ _ I) | exact (proj1 R)]|]. intros y r E. destruct rest0 as [| [k x0] rest0]; [exact (proj2 R y r E)|]. pose proof (items_settled _ _ I _ eq_refl) as T. rewrite triviab in T. cbn [fst] in T. destruct k as [k|]; [|now destruct T]. cbn in E. injection E as <- _. exact (N k eq_refl). }
        destruct (item_rest_below _ R0) as [B0 C0]. destruct (One p t _ _ _ g s trees G F (does_may_no QComma _ C0) (proj1 R0) B0 S L Lg) as (g1 & s1 & E1 & S1 & R1 & L1). rewrite app_length in L.
        destruct (IH g1 rest s1 _ R S1 ltac:(lia) L1) as (g2 & s2 & E2 & S2 & R2 & L2). exists g2, s2. rewrite E1, E2. split; [reflexivity|]. split; [|split; [congruence | exact L2]]. rewrite <- app_assoc in S2. exact S2.
    Qed.
    Lemma does_items_from ps ts rest : items ps ts -> ysettled rest -> at_head QFrom rest = true -> S (length (ysof ps ++ rest)) < f -> does (sql_items expr f QFrom) (ysof ps ++ rest) rest ts 0.
    Proof.
      intros I Y H L s trees S. destruct rest as [| y r]; [discriminate|]. cbn [at_head] in H. assert (R : item_rest (y :: r)). { split; [exact Y|]. intros z q E. injection E as <- _. apply Nat.eqb_eq in H. rewrite H. vm_compute. intuition discriminate. }
      destruct (items_run ps ts I f (y :: r) s trees R S L ltac:(lia)) as (g & s1 & E & S1 & Er & Lg). exists s1. unfold sql_items. rewrite E. split; [|now split]. destruct g as [| g]; [lia|]. cbn [sql_while]. rewrite (more_head _ _ _ _ S1). cbn [existsb at_head]. now rewrite H.
    Qed.
    Lemma does_items_end ps ts : items ps ts -> S (length (ysof ps ++ [(QEof, 0)])) < f -> does (sql_items expr f QFrom) (ysof ps ++ [(QEof, 0)]) [] (ts ++ [gnode NErrorNode [leaf QEof []]]) 0.
    Proof.
      intros I L s trees S. assert (R : item_rest [(QEof, 0)]). { split; [reflexivity|]. intros z q E. injection E as <- _. vm_compute. intuition discriminate. }
      destruct (items_run ps ts I f _ s trees R S L ltac:(lia)) as (g & s1 & E & S1 & Er & Lg). unfold sql_items. rewrite E. cbn [length] in Lg. destruct g as [| [| g]]; [lia | lia|]. cbn [sql_while]. rewrite (more_head _ _ _ _ S1). cbn [existsb at_head fst QEof QFrom Nat.eqb orb andb negb].
      assert (G : groups 0 [(Some QEof, [])] (gnode NErrorNode [leaf QEof []])) by (apply (GOther 0 QEof [] []); [rewrite triviab; discriminate | vm_compute; intuition discriminate | constructor]). assert (Lf : 2 < f) by (rewrite app_length in L; cbn [length] in L; lia).
      assert (B : below 0 []) by (intros y r p Q; discriminate). destruct (does_seq _ _ _ _ _ _ _ _ _ (does_expr f _ _ [] G Logic.I B Lf) (does_may_no QComma [] eq_refl) s1 _ S1) as (s2 & E2 & S2 & R2). unfold sql_seq at 1. rewrite E2. rewrite (more_head _ _ _ _ S2). cbn [andb]. exists s2. split; [reflexivity|]. rewrite app_nil_r, <- app_assoc in S2. split; [exact S2 | lia].
    Qed.
    Lemma does_joins_no ys : (forall k, In k [QJoin; QInner; QLeft; QRight; QFull] -> at_head k ys = false) -> 0 < f -> does (sql_joins expr f) ys ys [] 0.
    Proof.
      intros H L s trees S. exists s. rewrite app_nil_r. split; [|now split]. unfold sql_joins. destruct f as [| f']; [lia|]. cbn [sql_while]. cbn [existsb]. rewrite !(sits_head _ _ _ _ S), !H by (cbn [In]; tauto). reflexivity.
    Qed.
  End Loops.

  (** *** Programs *)
  Lemma does_eq a ys ys' new e new' e' : does a ys ys' new e -> new = new' -> e = e' -> does a ys ys' new' e'.
  Proof. now intros D -> ->. Qed.
  Lemma top_statement f ys ys' new e : ysettled ys -> does (sql_statement (sql_expr f) f) ys ys' new e -> does (sql_top (sql_expr f) f) ys ys' new e.
  Proof. intros Y D s trees S. unfold sql_top. rewrite (current_settled toks s ys trees S Y). exact (D s trees S). Qed.
  Lemma does_limit_no ys : at_head QLimit ys = false -> at_head QOffset ys = false -> does sql_limit ys ys [] 0.
  Proof. intros H1 H2. unfold sql_limit. apply does_if_no; [exact H1|]. apply does_if_no; [exact H2 | apply does_nop]. Qed.
  Lemma statement_at f (k : nat) a ys ys' new e : In k statement_words -> at_head k ys = true ->
    a = (if k =? QSelect then sql_select (sql_expr f) f else if k =? QInsert then sql_insert (sql_expr f) f else if k =? QUpdate then sql_update (sql_expr f) f else if k =? QDelete then sql_delete (sql_expr f)
         else if k =? QCreate then sql_skipped NCreateStatement else if k =? QDrop then sql_skipped NDropStatement else sql_skipped NAlterStatement) -> does a ys ys' new e -> does (sql_statement (sql_expr f) f) ys ys' new e.
  Proof.
    intros I H -> D s trees S. unfold sql_statement. rewrite !(sits_head _ _ _ _ S). destruct ys as [| y r]; [discriminate|]. cbn [at_head] in *. apply Nat.eqb_eq in H. rewrite H. unfold statement_words in I. cbn [In] in I. repeat (destruct I as [<- | I]; [exact (D s trees S)|]). destruct I.
  Qed.
  Lemma does_statement_lost f ys ys' new e : (forall k, In k statement_words -> at_head k ys = false) -> does (sql_until QSemicolon ;> sql_may QSemicolon) ys ys' new e -> does (sql_statement (sql_expr f) f) ys ys' new e.
  Proof. intros H D s trees S. unfold sql_statement. rewrite !(sits_head _ _ _ _ S). unfold statement_words in H. rewrite !H by (cbn [In]; tauto). exact (D s trees S). Qed.
  Lemma program_settled ps ts e : program ps ts e -> settled ps.
  Proof.
    assert (H : forall k x r, sql_ign k = false -> settled ((Some k, x) :: r)) by (intros k x r N p E; injection E as <-; rewrite triviab; cbn [fst]; congruence).
    intros [x w p t0 _ _ | x w p t0 y w' rest t' e' _ _ _ _ _ _ | k kind o next x w rest t0 e' N _ _ _ _ _ | k kind k' next x w y w' rest t0 e' N _ _ _ _ _ | k kind x w body y w' rest t0 e' N _ _ _ _ _ _ | k kind x w body N _ _ _ | body y w rest t0 e' B _ _ _ _ _ | body B _ _].
    1, 2: now apply H. 1, 2: apply H; now destruct N. 1, 2: apply H; now destruct N.
    - destruct body as [| b body]; [now apply H | intros p E; exact (B p E)].
    - exact B.
  Qed.
  Lemma eof_settled : ysettled [(QEof, 0)].
  Proof. reflexivity. Qed.
  (** one round of the loop over the file *)
  Lemma round f g ys ys' new e ts e' : does (sql_top (sql_expr f) f) ys ys' new e -> ys <> [] -> does (sql_while g ps_not_at_end (sql_top (sql_expr f) f)) ys' [] ts e' -> does (sql_while (S g) ps_not_at_end (sql_top (sql_expr f) f)) ys [] (new ++ ts) (e + e').
  Proof.
    intros D N R s trees S. cbn [sql_while]. rewrite (sits_end _ _ _ _ S). destruct ys as [| y r]; [contradiction|]. exact (does_seq _ _ _ _ _ _ _ _ _ D R s trees S).
  Qed.
  Lemma round_end f g ys new e : does (sql_top (sql_expr f) f) ys [] new e -> ys <> [] -> does (sql_while (S (S g)) ps_not_at_end (sql_top (sql_expr f) f)) ys [] new e.
  Proof.
    intros D N. assert (R : does (sql_while (S g) ps_not_at_end (sql_top (sql_expr f) f)) [] [] [] 0) by (intros s trees S; cbn [sql_while]; rewrite (sits_end _ _ _ _ S); exact (does_nop [] s trees S)). eapply does_eq; [exact (round f (S g) ys [] new e [] 0 D N R) | apply app_nil_r | lia].
  Qed.
  Lemma lost_lemma body y w rest : settled body -> none_is QSemicolon body -> Forall trivia w -> ysettled rest ->
    does (sql_until QSemicolon ;> sql_may QSemicolon) (ysof body ++ (QSemicolon, length (encode y)) :: ysof w ++ rest) rest (leaves (filter stray body) ++ leaf QSemicolon y :: leaves w) 0.
  Proof.
    intros B N F Y. eapply does_seq with (e1 := 0) (e2 := 0); [|exact (does_may QSemicolon y w rest F Y)]. rewrite <- stray_leaves. apply does_until; [|now apply none_ys | now right | reflexivity]. pose proof (settled_ys body [] B I) as Q. now rewrite app_nil_r in Q.
  Qed.
  Lemma lost_end body : settled body -> none_is QSemicolon body -> does (sql_until QSemicolon ;> sql_may QSemicolon) (ysof body ++ [(QEof, 0)]) [] (leaves (filter stray body)) 0.
  Proof.
    intros B N. eapply does_eq; [eapply does_seq with (e1 := 0) (e2 := 0); [|exact (does_may_no QSemicolon [] eq_refl)] | apply app_nil_r | reflexivity]. rewrite <- stray_leaves. pose proof (does_until QSemicolon (ysof body ++ [(QEof, 0)]) []) as D. rewrite app_nil_r in D. eapply does_eq; [apply D | | reflexivity].
    - now apply settled_ys. - apply Forall_app. split; [now apply none_ys|]. constructor; [discriminate | constructor]. - now left. - exact I.
    - rewrite filter_app, map_app. cbn. apply app_nil_r.
  Qed.
  Lemma select_from f x w ps ts y w' rest : Forall trivia w -> items ps ts -> Forall trivia w' -> settled rest ->
    first_not [QIdentifier_; QJoin; QInner; QLeft; QRight; QFull; QWhere; QGroup; QHaving; QOrder; QLimit; QOffset; QSemicolon] rest ->
    S (length ((QSelect, length (encode x)) :: ysof w ++ ysof ps ++ (QFrom, length (encode y)) :: ysof w' ++ ysof rest ++ [(QEof, 0)])) < f ->
    does (sql_select (sql_expr f) f) ((QSelect, length (encode x)) :: ysof w ++ ysof ps ++ (QFrom, length (encode y)) :: ysof w' ++ ysof rest ++ [(QEof, 0)]) (ysof rest ++ [(QEof, 0)])
      [gnode NSelectStatement (leaf QSelect x :: leaves w ++ ts ++ leaf QFrom y :: leaves w')] 1.
  Proof.
    intros Fw It Fw' Sr N L. unfold sql_select. apply does_node. set (tail := ysof rest ++ [(QEof, 0)]) in *. assert (Yt : ysettled tail) by (apply settled_ys; [exact Sr | exact eof_settled]).
    assert (H : forall k, In k [QIdentifier_; QJoin; QInner; QLeft; QRight; QFull; QWhere; QGroup; QHaving; QOrder; QLimit; QOffset; QSemicolon] -> at_head k tail = false) by (intros k I; apply (head_first _ k rest N Sr I); vm_compute; intuition discriminate).
    assert (Yp : ysettled (ysof ps ++ (QFrom, length (encode y)) :: ysof w' ++ tail)) by (apply settled_ys; [exact (items_settled _ _ It) | reflexivity]). cbn [length] in L. rewrite app_length in L.
    eapply does_eq; [eapply does_seq; [exact (does_want QSelect x w _ Fw Yp)|]; eapply does_seq; [apply (does_items_from f ps ts _ It); [reflexivity | reflexivity | lia]|]; eapply does_seq; [eapply does_if; [exact Fw' | exact Yt | eapply does_seq; [apply does_want_no; apply H; cbn [In]; tauto | apply does_joins_no; [intros k I; apply H; cbn [In] in *; tauto | lia]]]|] | | ].
    - eapply does_seq; [apply does_if_no; [apply H; cbn [In]; tauto | apply does_nop]|]. eapply does_seq; [apply does_if_no; [apply H; cbn [In]; tauto | apply does_nop]|]. eapply does_seq; [apply does_if_no; [apply H; cbn [In]; tauto | apply does_nop]|]. eapply does_seq; [apply does_if_no; [apply H; cbn [In]; tauto | apply does_nop]|]. eapply does_seq; [apply does_limit_no; apply H; cbn [In]; tauto|]. apply does_may_no. apply H. cbn [In]. tauto.
    - cbn [app]. now rewrite !app_nil_r.
    - reflexivity.
  Qed.
  Lemma select_end f x w ps ts : Forall trivia w -> items ps ts -> S (length ((QSelect, length (encode x)) :: ysof w ++ ysof ps ++ [(QEof, 0)])) < f ->
    does (sql_select (sql_expr f) f) ((QSelect, length (encode x)) :: ysof w ++ ysof ps ++ [(QEof, 0)]) [] [gnode NSelectStatement (leaf QSelect x :: leaves w ++ ts ++ [gnode NErrorNode [leaf QEof []]])] 0.
  Proof.
    intros Fw It L. unfold sql_select. apply does_node. assert (Yp : ysettled (ysof ps ++ [(QEof, 0)])) by (apply settled_ys; [exact (items_settled _ _ It) | reflexivity]). cbn [length] in L. rewrite app_length in L.
    eapply does_eq; [eapply does_seq; [exact (does_want QSelect x w _ Fw Yp)|]; eapply does_seq; [apply (does_items_end f ps ts It); lia|]; eapply does_seq; [apply does_if_no; [reflexivity | apply does_nop]|] | | ].
    - eapply does_seq; [apply does_if_no; [reflexivity | apply does_nop]|]. eapply does_seq; [apply does_if_no; [reflexivity | apply does_nop]|]. eapply does_seq; [apply does_if_no; [reflexivity | apply does_nop]|]. eapply does_seq; [apply does_if_no; [reflexivity | apply does_nop]|]. eapply does_seq; [apply does_limit_no; reflexivity|]. now apply does_may_no.
    - cbn [app]. now rewrite !app_nil_r.
    - reflexivity.
  Qed.
  Lemma named_one f k kind o next x w rest : named k kind o next -> Forall trivia w -> settled rest -> (forall k', o = Some k' -> first_not [k'] rest) -> first_not next rest ->
    does (sql_statement (sql_expr f) f) ((k, length (encode x)) :: ysof w ++ ysof rest ++ [(QEof, 0)]) (ysof rest ++ [(QEof, 0)]) [gnode kind (leaf k x :: leaves w)] 1.
  Proof.
    intros Nm F Sr No Nn. set (tail := ysof rest ++ [(QEof, 0)]). assert (Yt : ysettled tail) by (apply settled_ys; [exact Sr | exact eof_settled]).
    assert (H : forall k, In k next -> at_head k tail = false) by (intros k0 I0; apply (head_first _ k0 rest Nn Sr I0); destruct Nm; vm_compute; intuition discriminate).
    assert (Ho : forall k', o = Some k' -> at_head k' tail = false) by (intros k' E; apply (head_first [k'] k' rest (No k' E) Sr); [now left|]; destruct Nm; try discriminate E; injection E as <-; vm_compute; intuition discriminate).
    eapply (statement_at f k); [destruct Nm; cbn; tauto | apply Nat.eqb_refl | reflexivity|]. destruct Nm; cbn [Nat.eqb QInsert QUpdate QDelete QSelect].
    - apply does_node. eapply does_eq; [eapply does_seq; [exact (does_want QInsert x w tail F Yt)|]; eapply does_seq; [apply does_may_no; now apply Ho|]; eapply does_seq; [apply does_want_no; apply H; cbn [In]; tauto|]; eapply does_seq; [apply does_if_no; [apply H; cbn [In]; tauto | apply does_nop]|]; apply does_may_no; apply H; cbn [In]; tauto | cbn [app]; now rewrite app_nil_r | reflexivity].
    - apply does_node. eapply does_eq; [eapply does_seq; [exact (does_want QUpdate x w tail F Yt)|]; eapply does_seq; [apply does_want_no; apply H; cbn [In]; tauto|]; eapply does_seq; [apply does_if_no; [apply H; cbn [In]; tauto | apply does_nop]|]; eapply does_seq; [apply does_if_no; [apply H; cbn [In]; tauto | apply does_nop]|]; apply does_may_no; apply H; cbn [In]; tauto | cbn [app]; now rewrite app_nil_r | reflexivity].
    - apply does_node. eapply does_eq; [eapply does_seq; [exact (does_want QDelete x w tail F Yt)|]; eapply does_seq; [apply does_may_no; now apply Ho|]; eapply does_seq; [apply does_want_no; apply H; cbn [In]; tauto|]; eapply does_seq; [apply does_if_no; [apply H; cbn [In]; tauto | apply does_nop]|]; apply does_may_no; apply H; cbn [In]; tauto | cbn [app]; now rewrite app_nil_r | reflexivity].
  Qed.
  Lemma named_two f k kind k' next x w y w' rest : named k kind (Some k') next -> Forall trivia w -> Forall trivia w' -> settled rest -> first_not next rest ->
    does (sql_statement (sql_expr f) f) ((k, length (encode x)) :: ysof w ++ (k', length (encode y)) :: ysof w' ++ ysof rest ++ [(QEof, 0)]) (ysof rest ++ [(QEof, 0)]) [gnode kind (leaf k x :: leaves w ++ leaf k' y :: leaves w')] 1.
  Proof.
    intros Nm F F' Sr Nn. set (tail := ysof rest ++ [(QEof, 0)]). assert (Yt : ysettled tail) by (apply settled_ys; [exact Sr | exact eof_settled]).
    assert (H : forall k, In k next -> at_head k tail = false) by (intros k0 I0; apply (head_first _ k0 rest Nn Sr I0); inversion Nm; vm_compute; intuition discriminate).
    eapply (statement_at f k); [inversion Nm; cbn; tauto | apply Nat.eqb_refl | reflexivity|]. inversion Nm; subst; cbn [Nat.eqb QInsert QUpdate QDelete QSelect].
    - apply does_node. eapply does_eq; [eapply does_seq; [exact (does_want QInsert x w _ F (eq_refl : ysettled ((QInto, length (encode y)) :: ysof w' ++ tail)))|]; eapply does_seq; [exact (does_may QInto y w' tail F' Yt)|]; eapply does_seq; [apply does_want_no; apply H; cbn [In]; tauto|]; eapply does_seq; [apply does_if_no; [apply H; cbn [In]; tauto | apply does_nop]|]; apply does_may_no; apply H; cbn [In]; tauto | cbn [app]; now rewrite !app_nil_r | reflexivity].
    - apply does_node. eapply does_eq; [eapply does_seq; [exact (does_want QDelete x w _ F (eq_refl : ysettled ((QFrom, length (encode y)) :: ysof w' ++ tail)))|]; eapply does_seq; [exact (does_may QFrom y w' tail F' Yt)|]; eapply does_seq; [apply does_want_no; apply H; cbn [In]; tauto|]; eapply does_seq; [apply does_if_no; [apply H; cbn [In]; tauto | apply does_nop]|]; apply does_may_no; apply H; cbn [In]; tauto | cbn [app]; now rewrite !app_nil_r | reflexivity].
  Qed.
  Lemma skipped_at f k kind ys ys' new e : skipped k kind -> at_head k ys = true -> does (sql_bump ;> sql_until QSemicolon ;> sql_may QSemicolon) ys ys' new e -> does (sql_statement (sql_expr f) f) ys ys' [gnode kind new] e.
  Proof. intros Sk H D. eapply (statement_at f k); [destruct Sk; cbn; tauto | exact H | reflexivity|]. destruct Sk; cbn [Nat.eqb QCreate QDrop QAlter QInsert QUpdate QDelete QSelect]; now apply does_node. Qed.

  Lemma cons_ys k x r tail : ysof ((Some k, x) :: r) ++ tail = (k, length (encode x)) :: ysof r ++ tail.
  Proof. reflexivity. Qed.
  Lemma program_run f ps ts e : program ps ts e -> forall g, S (length (ysof ps ++ [(QEof, 0)])) < f -> S (length (ysof ps ++ [(QEof, 0)])) < g -> does (sql_while g ps_not_at_end (sql_top (sql_expr f) f)) (ysof ps ++ [(QEof, 0)]) [] ts e.
  Proof.
    assert (Last : forall ps ts e ys new g, program ps ts e -> ysof ps ++ [(QEof, 0)] = ys -> does (sql_statement (sql_expr f) f) ys [] new e -> S (length ys) < g -> does (sql_while g ps_not_at_end (sql_top (sql_expr f) f)) ys [] new e).
    { intros ps0 ts0 e0 ys new g P <- D L. destruct g as [| [| g]]; [lia | lia|]. apply round_end; [|now destruct (ysof ps0)]. apply top_statement; [|exact D]. apply settled_ys; [exact (program_settled _ _ _ P) | exact eof_settled]. }
    assert (More : forall ps ts e ys rest new e0 ts' e' g, program ps ts e -> ysof ps ++ [(QEof, 0)] = ys -> does (sql_statement (sql_expr f) f) ys (ysof rest ++ [(QEof, 0)]) new e0 -> (forall g, S (length (ysof rest ++ [(QEof, 0)])) < f -> S (length (ysof rest ++ [(QEof, 0)])) < g -> does (sql_while g ps_not_at_end (sql_top (sql_expr f) f)) (ysof rest ++ [(QEof, 0)]) [] ts' e') ->
      length (ysof rest ++ [(QEof, 0)]) < length ys -> S (length ys) < f -> S (length ys) < g -> does (sql_while g ps_not_at_end (sql_top (sql_expr f) f)) ys [] (new ++ ts') (e0 + e')).
    { intros ps0 ts0 e1 ys rest new e0 ts' e' g P <- D R Lr Lf Lg. destruct g as [| g]; [lia|]. eapply round; [|now destruct (ysof ps0)|apply R; lia]. apply top_statement; [|exact D]. apply settled_ys; [exact (program_settled _ _ _ P) | exact eof_settled]. }
    intros P. induction P as [x w p t0 Fw It | x w p t0 y w' rest t' e' Fw It Fw' Sr Nr Pr IH | k kind o next x w rest t0 e' Nm Fw Sr No Nn Pr IH | k kind k' next x w y w' rest t0 e' Nm Fw Fw' Sr Nn Pr IH | k kind x w body y w' rest t0 e' Sk Fw Sb Nb Fw' Sr Pr IH | k kind x w body Sk Fw Sb Nb | body y w rest t0 e' Sb Nb Ns Fw Sr Pr IH | body Sb Nb Ns]; intros g Lf Lg.
    - assert (Q : ysof ((Some QSelect, x) :: w ++ p) ++ [(QEof, 0)] = (QSelect, length (encode x)) :: ysof w ++ ysof p ++ [(QEof, 0)]) by (rewrite cons_ys, flat_map_app; now rewrite <- app_assoc). rewrite Q in *.
      eapply Last; [exact (ProgramItems x w p t0 Fw It) | exact Q | | exact Lg]. eapply (statement_at f QSelect); [cbn; tauto | reflexivity | reflexivity|]. cbn [Nat.eqb QSelect]. now apply select_end.
    - assert (Q : ysof ((Some QSelect, x) :: w ++ p ++ (Some QFrom, y) :: w' ++ rest) ++ [(QEof, 0)] = (QSelect, length (encode x)) :: ysof w ++ ysof p ++ (QFrom, length (encode y)) :: ysof w' ++ ysof rest ++ [(QEof, 0)]).
      { rewrite cons_ys, !flat_map_app. cbn [flat_map piece_yield fst snd app]. rewrite flat_map_app, <- !app_assoc. cbn [app]. now rewrite <- !app_assoc. }
      rewrite Q in *. eapply (More _ _ _ _ rest [_] 1 t' e'); [exact (ProgramFrom x w p t0 y w' rest t' e' Fw It Fw' Sr Nr Pr) | exact Q | | exact IH | rewrite ?app_length; cbn [length]; rewrite ?app_length; cbn [length]; rewrite ?app_length; cbn [length]; lia | exact Lf | exact Lg]. eapply (statement_at f QSelect); [cbn; tauto | reflexivity | reflexivity|]. cbn [Nat.eqb QSelect]. now apply select_from.
    - assert (Q : ysof ((Some k, x) :: w ++ rest) ++ [(QEof, 0)] = (k, length (encode x)) :: ysof w ++ ysof rest ++ [(QEof, 0)]) by (rewrite cons_ys, flat_map_app; now rewrite <- app_assoc). rewrite Q in *.
      eapply (More _ _ _ _ rest [_] 1 t0 e'); [exact (ProgramNamed k kind o next x w rest t0 e' Nm Fw Sr No Nn Pr) | exact Q | now apply (named_one f k kind o next) | exact IH | cbn [length]; rewrite (app_length (ysof w)); lia | exact Lf | exact Lg].
    - assert (Q : ysof ((Some k, x) :: w ++ (Some k', y) :: w' ++ rest) ++ [(QEof, 0)] = (k, length (encode x)) :: ysof w ++ (k', length (encode y)) :: ysof w' ++ ysof rest ++ [(QEof, 0)]) by (rewrite cons_ys, flat_map_app; cbn [flat_map piece_yield fst snd app]; rewrite flat_map_app, <- !app_assoc; cbn [app]; now rewrite <- !app_assoc). rewrite Q in *.
      eapply (More _ _ _ _ rest [_] 1 t0 e'); [exact (ProgramNamed2 k kind k' next x w y w' rest t0 e' Nm Fw Fw' Sr Nn Pr) | exact Q | now apply (named_two f k kind k' next) | exact IH | cbn [length]; rewrite (app_length (ysof w)); cbn [length]; rewrite (app_length (ysof w')); lia | exact Lf | exact Lg].
    - assert (Q : ysof ((Some k, x) :: w ++ body ++ (Some QSemicolon, y) :: w' ++ rest) ++ [(QEof, 0)] = (k, length (encode x)) :: ysof w ++ ysof body ++ (QSemicolon, length (encode y)) :: ysof w' ++ ysof rest ++ [(QEof, 0)]).
      { rewrite cons_ys, !flat_map_app. cbn [flat_map piece_yield fst snd app]. rewrite flat_map_app, <- !app_assoc. cbn [app]. now rewrite <- !app_assoc. }
      rewrite Q in *. assert (Yr : ysettled (ysof rest ++ [(QEof, 0)])) by (apply settled_ys; [exact Sr | exact eof_settled]). assert (Yb : ysettled (ysof body ++ (QSemicolon, length (encode y)) :: ysof w' ++ ysof rest ++ [(QEof, 0)])) by (apply settled_ys; [exact Sb | reflexivity]).
      eapply (More _ _ _ _ rest [_] 0 t0 e'); [exact (ProgramSkipped k kind x w body y w' rest t0 e' Sk Fw Sb Nb Fw' Sr Pr) | exact Q | | exact IH | cbn [length]; rewrite (app_length (ysof w)), (app_length (ysof body)); cbn [length]; rewrite (app_length (ysof w')); lia | exact Lf | exact Lg].
      apply (skipped_at f k kind); [exact Sk | apply Nat.eqb_refl|]. exact (does_seq _ _ _ _ _ _ _ _ _ (does_bump k x w _ Fw Yb) (lost_lemma body y w' _ Sb Nb Fw' Yr)).
    - assert (Q : ysof ((Some k, x) :: w ++ body) ++ [(QEof, 0)] = (k, length (encode x)) :: ysof w ++ ysof body ++ [(QEof, 0)]) by (rewrite cons_ys, flat_map_app; now rewrite <- app_assoc). rewrite Q in *. assert (Yb : ysettled (ysof body ++ [(QEof, 0)])) by (apply settled_ys; [exact Sb | exact eof_settled]).
      eapply Last; [exact (ProgramSkippedEnd k kind x w body Sk Fw Sb Nb) | exact Q | | exact Lg]. apply (skipped_at f k kind); [exact Sk | apply Nat.eqb_refl|]. exact (does_seq _ _ _ _ _ _ _ _ _ (does_bump k x w _ Fw Yb) (lost_end body Sb Nb)).
    - assert (Q : ysof (body ++ (Some QSemicolon, y) :: w ++ rest) ++ [(QEof, 0)] = ysof body ++ (QSemicolon, length (encode y)) :: ysof w ++ ysof rest ++ [(QEof, 0)]) by (rewrite flat_map_app; cbn [flat_map piece_yield fst snd app]; rewrite flat_map_app, <- !app_assoc; cbn [app]; now rewrite <- !app_assoc). rewrite Q in *.
      assert (Yr : ysettled (ysof rest ++ [(QEof, 0)])) by (apply settled_ys; [exact Sr | exact eof_settled]). eapply does_eq; [eapply (More _ _ _ _ rest (leaves (filter stray body) ++ leaf QSemicolon y :: leaves w) 0 t0 e'); [exact (ProgramLost body y w rest t0 e' Sb Nb Ns Fw Sr Pr) | exact Q | | exact IH | rewrite (app_length (ysof body)); cbn [length]; rewrite (app_length (ysof w)); lia | exact Lf | exact Lg] | rewrite <- app_assoc; reflexivity | reflexivity].
      apply does_statement_lost; [|now apply lost_lemma]. intros k Ik. destruct body as [| [o z] body]; [unfold statement_words in Ik; cbn [In] in Ik; repeat (destruct Ik as [<- | Ik]; [reflexivity|]); destruct Ik|]. pose proof (Sb _ eq_refl) as T. rewrite triviab in T. cbn [fst] in T. destruct o as [o|]; [|now destruct T]. cbn. apply Nat.eqb_neq. intros ->. exact (Ns k eq_refl Ik).
    - eapply Last; [exact (ProgramLostEnd body Sb Nb Ns) | reflexivity | | exact Lg]. apply does_statement_lost; [|now apply lost_end]. intros k Ik. apply (head_first _ k body Ns Sb Ik). vm_compute. intuition discriminate.
  Qed.
  Lemma root_run f ps ts e s trees : program ps ts e -> S (length (ysof ps ++ [(QEof, 0)])) < f -> sits s (ysof ps ++ [(QEof, 0)]) trees -> ps_errs s = [] ->
    exists errs, sql_root f s = Some (gnode NRoot ts, errs) /\ length errs = e.
  Proof.
    intros P L S Er. destruct (program_run f ps ts e P f L L s trees S) as (s1 & E1 & S1 & R1). unfold sql_root, sql_node_at. rewrite E1. unfold checkpoint. rewrite (sits_sink _ _ _ _ S). destruct (sits_finish sql_ign toks Hfit s1 [] trees ts (ps_index s) NRoot S1) as (i & s2 & F & S2 & Er2). rewrite F. exists (ps_errs s2). split; [reflexivity|]. rewrite Er2, R1, Er. cbn. lia.
  Qed.
End Exact.

(** ** Texts *)
Lemma split_trivia ps : exists w qs, ps = w ++ qs /\ Forall trivia w /\ settled qs.
Proof.
  induction ps as [| p ps (w & qs & -> & F & H)]; [exists [], []; split; [reflexivity|]; split; [constructor | intros q E; discriminate]|]. assert (D : trivia p \/ ~ trivia p) by (rewrite triviab; destruct (fst p) as [k|]; [destruct (sql_ign k); [now left | right; discriminate] | now left]). destruct D as [T | T].
  - exists (p :: w), qs. split; [reflexivity|]. split; [now constructor | exact H].
  - exists [], (p :: w ++ qs). split; [reflexivity|]. split; [constructor|]. intros q E. now injection E as <-.
Qed.
Section Text.
  Variable (alnum : Z -> bool) (upper : str -> str) (cs : list Z) (ps : list piece).
  Hypothesis Sc : Forall is_scalar cs.
  Hypothesis Len : (Z.of_nat (length (encode cs)) < 2 ^ 32)%Z.
  Hypothesis C : cut (sql_piece alnum upper) cs ps.
  Let n := length (encode cs).
  Let toks := spans 0 ps ++ [Token QEof n n].

  Lemma toks_lexed : sql_lex alnum upper (encode cs) = Some toks.
  Proof. destruct (SqlLexProofs.sql_lex_cut alnum upper cs Sc) as (ps' & C' & E). rewrite E. unfold toks, n. now rewrite (cut_unique _ cs ps (SqlLexProofs.sql_pieces_unique alnum upper) C ps' C'). Qed.
  Lemma toks_fit : (Z.of_nat (toklen toks) < 2 ^ 32)%Z.
  Proof. apply (spans_fit cs); [now apply (cut_text (sql_piece alnum upper)) | exact Len]. Qed.
  Lemma toks_yield : map tok_yield toks = ysof ps ++ [(QEof, 0)].
  Proof. unfold toks. rewrite map_app, spans_yields. unfold tok_yield. cbn [map tk_kind tk_start tk_end]. now rewrite Nat.sub_diag. Qed.
  Lemma start_sits w qs : ps = w ++ qs -> Forall trivia w -> settled qs -> exists trees, sits toks (ps_new sql_ign toks n []) (ysof qs ++ [(QEof, 0)]) trees /\ ps_errs (ps_new sql_ign toks n []) = [].
  Proof.
    intros E F H. destruct (sits_new sql_ign toks toks_fit n []) as [S Er]. rewrite toks_yield, E, flat_map_app, <- app_assoc in S. destruct (trivia_run w (ysof qs ++ [(QEof, 0)]) F (settled_ys qs _ H eof_settled)) as [Q _]. rewrite Q in S. eexists. split; [exact S | exact Er].
  Qed.
  Lemma ys_length qs : length (ysof qs) <= length qs.
  Proof. clear. induction qs as [| [k x] qs IH]; [cbn; lia|]. destruct k; cbn; lia. Qed.
  Lemma tree_ends fuel : 2 + length ps < fuel -> exists w qs ch errs, ps = w ++ qs /\ Forall trivia w /\ settled qs /\ sql_tree alnum upper fuel (encode cs) = Some (gnode NRoot ch, errs) /\ thinned (ysof qs ++ [(QEof, 0)]) (flat_map yield ch).
  Proof.
    intros L. destruct (split_trivia ps) as (w & qs & E & F & H). destruct (start_sits w qs E F H) as (trees & S & _). assert (Lq : 1 + length (ysof qs ++ [(QEof, 0)]) < fuel) by (rewrite app_length; pose proof (ys_length qs); rewrite E, app_length in L; cbn [length]; lia).
    destruct (root_goes toks toks_fit fuel _ _ trees S (settled_ys qs _ H eof_settled) Lq) as (ch & errs & R & T). exists w, qs, ch, errs. split; [exact E|]. split; [exact F|]. split; [exact H|]. split; [|exact T]. unfold sql_tree. now rewrite toks_lexed.
  Qed.
  Lemma tree_program fuel w qs ts e : ps = w ++ qs -> Forall trivia w -> program qs ts e -> 2 + length ps < fuel -> exists errs, sql_tree alnum upper fuel (encode cs) = Some (gnode NRoot ts, errs) /\ length errs = e.
  Proof.
    intros E F P L. destruct (start_sits w qs E F (program_settled _ _ _ P)) as (trees & S & Er). assert (Lq : 1 + length (ysof qs ++ [(QEof, 0)]) < fuel) by (rewrite app_length; pose proof (ys_length qs); rewrite E, app_length in L; cbn [length]; lia).
    unfold sql_tree. rewrite toks_lexed. exact (root_run toks toks_fit fuel qs ts e _ trees P Lq S Er).
  Qed.
End Text.
Lemma piece_no_name alnum upper k s r : sql_piece alnum upper k s r -> k <> Some QIdentifier_ /\ k <> Some QEof.
Proof.
  destruct 1 as [| | | | | | | | | | | | | c s r k _ _ K | s k r I _ _ _ | |]; try (split; discriminate).
  - destruct K as [K | [_ ->]]; [|split; discriminate]. split; intros E; injection E as ->; cbn in K; repeat (destruct K as [K | K]; [discriminate|]); exact K.
  - split; intros E; injection E as ->; cbn in I; repeat (destruct I as [I | I]; [discriminate|]); exact I.
Qed.
(** the pieces of a text, computed *)
Section Compute.
  Variable (alnum : Z -> bool) (upper : str -> str).
  Fixpoint pieces (n : nat) (cs : list Z) : option (list piece) :=
    match cs, n with
    | [], _ => Some []
    | _, O => None
    | _, S m => let '(k, s, t) := SqlLexProofs.sql1 alnum upper cs in option_map (cons (k, s)) (pieces m t)
    end.
  Lemma pieces_cut : forall n cs ps, pieces n cs = Some ps -> cut (sql_piece alnum upper) cs ps.
  Proof.
    induction n as [| n IH]; intros [| c cs] ps E; cbn [pieces] in E; try discriminate; try (injection E as <-; constructor). pose proof (SqlLexProofs.sql1_piece alnum upper c cs) as H. destruct (SqlLexProofs.sql1 alnum upper (c :: cs)) as [[k s] t]. destruct H as (Q & N & P).
    destruct (pieces n t) as [r|] eqn:R; [|discriminate]. injection E as <-. rewrite Q. apply CutPiece; [exact N | exact P | exact (IH t r R)].
  Qed.
End Compute.
