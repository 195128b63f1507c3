(** The state of a parser as the tokens to come and the trees so far. *)
From Verif Require Import Base Utf8 Utf8Facts LexModel TreeModel TreeSpec TreeProofs ParserModel ParserSpec ParserProofs JsonLangSpec LangSpec.

Definition tokleaf (t : token) : green := GLeaf (tk_kind t) (tk_end t - tk_start t) None.
Definition toklen (ts : list token) : nat := list_sum (map (fun t => tk_end t - tk_start t) ts).

Section Sees.
  Variable (ign : nat -> bool) (toks : list token).
  Hypothesis Hfit : (Z.of_nat (toklen toks) < 2 ^ 32)%Z.

  Definition sees (s : pstate) (rest : list token) (trees : list green) : Prop :=
    ps_toks s = toks /\ ps_index s <= length toks /\ skipn (ps_index s) toks = rest /\ map snd (ps_sink s) = trees /\
    Forall built trees /\ list_sum (map width trees) + toklen rest <= toklen toks /\ ps_inc s = None.

  Fixpoint trivia (ts : list token) : list token := match ts with t :: r => if ign (tk_kind t) then t :: trivia r else [] | [] => [] end.
  Fixpoint no_trivia (ts : list token) : list token := match ts with t :: r => if ign (tk_kind t) then no_trivia r else ts | [] => [] end.

  Lemma sees_current s rest trees : sees s rest trees -> ps_current s = hd_error rest.
  Proof.
    intros (T & I & R & _). unfold ps_current. rewrite T, <- R. destruct (nth_error toks (ps_index s)) as [t|] eqn:E; [now rewrite (skipn_nth _ _ _ E)|]. apply nth_error_None in E. now rewrite skipn_all2.
  Qed.
  Lemma sees_at s rest trees k : sees s rest trees -> at_kind s k = match rest with t :: _ => tk_kind t =? k | [] => false end.
  Proof. intros S. unfold at_kind, peek_kind. rewrite (sees_current _ _ _ S). now destruct rest. Qed.
  Lemma sees_end s rest trees : sees s rest trees -> ps_not_at_end s = match rest with [] => false | _ => true end.
  Proof.
    intros (T & I & R & _). unfold ps_not_at_end. rewrite T, <- R. destruct (Nat.ltb_spec (ps_index s) (length toks)).
    - destruct (skipn (ps_index s) toks) eqn:E; [|reflexivity]. apply (f_equal (@length token)) in E. rewrite skipn_length in E. cbn in E. lia.
    - now rewrite skipn_all2.
  Qed.

  Lemma sees_push s t rest trees : sees s (t :: rest) trees -> sees (set_index (push_leaf s t) (S (ps_index s))) rest (trees ++ [tokleaf t]).
  Proof.
    intros (T & I & R & K & B & W & N). unfold toklen in W. cbn [map list_sum fold_right] in W. fold (list_sum (map (fun t => tk_end t - tk_start t) rest)) in W. fold (toklen rest) in W. fold (toklen toks) in W.
    assert (L : as_u32 (tk_len t) = tk_end t - tk_start t). { apply as_u32_id. unfold tk_len. lia. }
    assert (I' : ps_index s < length toks). { destruct (Nat.ltb_spec (ps_index s) (length toks)); [assumption|]. rewrite skipn_all2 in R by lia. discriminate. }
    unfold sees. cbn [set_index push_leaf set_sink ps_toks ps_index ps_sink ps_errs ps_inc]. split; [assumption|]. split; [lia|]. split.
    { destruct (nth_error toks (ps_index s)) as [x|] eqn:E; [|apply nth_error_None in E; lia]. rewrite (skipn_nth _ _ _ E) in R. congruence. }
    split. { rewrite map_app, K. cbn [map snd]. now rewrite L. }
    split. { apply Forall_app. split; [assumption|]. constructor; constructor. }
    split; [|assumption]. rewrite map_app, list_sum_app. cbn. lia.
  Qed.

  Lemma sees_skip : forall n s rest trees, sees s rest trees -> length rest <= n -> sees (skip_trivia_loop ign n s) (no_trivia rest) (trees ++ map tokleaf (trivia rest)).
  Proof.
    induction n as [| n IH]; intros s rest trees S L.
    - destruct rest; [|cbn in L; lia]. cbn. now rewrite app_nil_r.
    - cbn [skip_trivia_loop]. rewrite (sees_current _ _ _ S). destruct rest as [| t rest]; cbn [hd_error]; [cbn; now rewrite app_nil_r|]. cbn [trivia no_trivia]. destruct (ign (tk_kind t)); [|cbn; now rewrite app_nil_r].
      cbv zeta. change (ps_index (push_leaf s t)) with (ps_index s). apply sees_push in S. cbn [length] in L. specialize (IH _ _ _ S ltac:(lia)). now rewrite <- app_assoc in IH.
  Qed.
  Lemma sees_length s rest trees : sees s rest trees -> length (ps_toks s) - ps_index s = length rest.
  Proof. intros (T & I & R & _). now rewrite T, <- R, skipn_length. Qed.

  Lemma sees_bump s t rest trees : sees s (t :: rest) trees -> sees (bump ign s) (no_trivia rest) (trees ++ tokleaf t :: map tokleaf (trivia rest)).
  Proof.
    intros V. unfold bump. rewrite (sees_current _ _ _ V). cbn [hd_error]. unfold ps_advance, skip_trivia. apply sees_push in V. change (set_index (push_leaf s t) (S (ps_index (push_leaf s t)))) with (set_index (push_leaf s t) (S (ps_index s))).
    rewrite (sees_length _ _ _ V). apply sees_skip with (n := length rest) in V; [|lia]. now rewrite <- app_assoc in V.
  Qed.
  Lemma bump_errs s : ps_errs (bump ign s) = ps_errs s.
  Proof. destruct (bump_push ign s) as (l & _ & E & _). exact E. Qed.

  Lemma sees_new n errs : sees (ps_new ign toks n errs) (no_trivia toks) (map tokleaf (trivia toks)) /\ ps_errs (ps_new ign toks n errs) = errs.
  Proof.
    unfold ps_new, skip_trivia. cbn [ps_toks ps_index]. rewrite Nat.sub_0_r. split.
    - apply (sees_skip (length toks) (PState toks 0 [] 0 errs n None) toks []); [|lia]. unfold sees. cbn. repeat split; try lia. constructor.
    - destruct (skip_loop_push ign (length toks) (PState toks 0 [] 0 errs n None)) as (l & _ & E & _). exact E.
  Qed.

  Lemma sum_trees_width ch : Forall built ch -> sum_len ch = list_sum (map width ch).
  Proof. apply sum_len_width. Qed.

  Lemma sees_finish s rest pre ch i kind : sees s rest (pre ++ ch) -> exists n s', finish_at s (i, length pre) kind = Some ((Some n, gnode kind ch), s') /\
    sees s' rest (pre ++ [gnode kind ch]) /\ ps_errs s' = ps_errs s.
  Proof.
    intros (T & I & R & K & B & W & N). pose proof B as B'. apply Forall_app in B'. destruct B' as [Bp Bc]. unfold finish_at. cbn [snd].
    assert (length (ps_sink s) <? length pre = false) as ->. { apply Nat.ltb_ge. rewrite <- (map_length snd), K, app_length. lia. }
    assert (E : map snd (skipn (length pre) (ps_sink s)) = ch). { rewrite <- skipn_map, K, skipn_app, skipn_all, Nat.sub_diag. reflexivity. }
    assert (Nn : new_node kind ch = Some (gnode kind ch)). { unfold new_node, gnode, fits_u32. rewrite (sum_len_width ch Bc). rewrite map_app, list_sum_app in W. destruct (N.ltb_spec (N.of_nat (list_sum (map width ch))) 4294967296); [reflexivity|]. lia. }
    rewrite E, Nn. cbv zeta. eexists _, _. split; [reflexivity|]. split; [|reflexivity]. unfold sees. cbn [ps_toks ps_index ps_sink ps_errs ps_inc]. split; [assumption|]. split; [assumption|]. split; [assumption|]. split.
    { rewrite map_app, <- firstn_map, K, firstn_app, firstn_all, Nat.sub_diag. cbn. now rewrite app_nil_r. }
    split. { apply Forall_app. split; [assumption|]. constructor; [|constructor]. now apply (BNode kind ch). }
    split; [|assumption]. rewrite map_app, list_sum_app in *. cbn [map list_sum fold_right gnode width] in *. lia.
  Qed.

  Lemma sees_error s rest trees tag off : sees s rest trees -> sees (push_error s tag off) rest trees.
  Proof. exact (fun S => S). Qed.
End Sees.

(** ** Without offsets: kinds and lengths of the tokens to come *)
Definition yleaf (y : nat * nat) : green := GLeaf (fst y) (snd y) None.

Section Trivia.
  Variable (ign : nat -> bool).
  Fixpoint ytrivia (ys : list (nat * nat)) : list (nat * nat) := match ys with y :: r => if ign (fst y) then y :: ytrivia r else [] | [] => [] end.
  Fixpoint ynext (ys : list (nat * nat)) : list (nat * nat) := match ys with y :: r => if ign (fst y) then ynext r else ys | [] => [] end.
  Lemma ytrivia_next ys : ytrivia ys ++ ynext ys = ys.
  Proof. induction ys as [| y r IH]; [reflexivity|]. cbn. destruct (ign (fst y)); cbn; now rewrite ?IH. Qed.
  Lemma ynext_length ys : length (ynext ys) <= length ys.
  Proof. induction ys as [| y r IH]; [reflexivity|]. cbn. destruct (ign (fst y)); cbn; lia. Qed.
  Lemma ynext_settled ys : match ynext ys with [] => True | y :: _ => ign (fst y) = false end.
  Proof. induction ys as [| y r IH]; [exact I|]. cbn. destruct (ign (fst y)) eqn:E; assumption. Qed.

  Lemma trivia_yields ts : map tok_yield (trivia ign ts) = ytrivia (map tok_yield ts) /\ map tok_yield (no_trivia ign ts) = ynext (map tok_yield ts).
  Proof. induction ts as [| t r [IH1 IH2]]; [now split|]. cbn. destruct (ign (tk_kind t)); cbn; now rewrite ?IH1. Qed.
End Trivia.

Section Sits.
  Variable (ign : nat -> bool) (toks : list token).
  Hypothesis Hfit : (Z.of_nat (toklen toks) < 2 ^ 32)%Z.
  Notation ytrivia := (ytrivia ign).
  Notation ynext := (ynext ign).

  Definition sits (s : pstate) (ys : list (nat * nat)) (trees : list green) : Prop :=
    exists rest, sees toks s rest trees /\ map tok_yield rest = ys.

  Lemma tokleaf_yields ts : map tokleaf ts = map yleaf (map tok_yield ts).
  Proof. rewrite map_map. reflexivity. Qed.

  Lemma sits_at s ys trees k : sits s ys trees -> at_kind s k = match ys with y :: _ => fst y =? k | [] => false end.
  Proof. intros (rest & S & <-). rewrite (sees_at _ _ _ _ k S). now destruct rest. Qed.
  Lemma sits_end s ys trees : sits s ys trees -> ps_not_at_end s = match ys with [] => false | _ => true end.
  Proof. intros (rest & S & <-). rewrite (sees_end _ _ _ _ S). now destruct rest. Qed.
  Lemma sits_bump s y ys trees : sits s (y :: ys) trees -> sits (bump ign s) (ynext ys) (trees ++ yleaf y :: map yleaf (ytrivia ys)) /\ ps_errs (bump ign s) = ps_errs s.
  Proof.
    intros (rest & S & E). destruct rest as [| t rest]; [discriminate|]. injection E as <- <-. split; [|apply bump_errs]. exists (no_trivia ign rest). split; [|apply trivia_yields].
    pose proof (sees_bump ign toks Hfit s t rest trees S) as B. rewrite tokleaf_yields in B. destruct (trivia_yields ign rest) as [-> _] in B. exact B.
  Qed.
  Lemma sits_finish s ys pre ch i kind : sits s ys (pre ++ ch) -> exists n s', finish_at s (i, length pre) kind = Some ((Some n, gnode kind ch), s') /\
    sits s' ys (pre ++ [gnode kind ch]) /\ ps_errs s' = ps_errs s.
  Proof. intros (rest & S & E). destruct (sees_finish ign toks Hfit s rest pre ch i kind S) as (n & s' & F & S' & Er). exists n, s'. split; [assumption|]. split; [now exists rest | assumption]. Qed.
  Lemma sits_new n errs : sits (ps_new ign toks n errs) (ynext (map tok_yield toks)) (map yleaf (ytrivia (map tok_yield toks))) /\ ps_errs (ps_new ign toks n errs) = errs.
  Proof.
    destruct (sees_new ign toks Hfit n errs) as [S E]. split; [|assumption]. exists (no_trivia ign toks). split; [|apply trivia_yields]. rewrite tokleaf_yields in S. destruct (trivia_yields ign toks) as [-> _] in S. exact S.
  Qed.
  Lemma sits_sink s ys trees : sits s ys trees -> length (ps_sink s) = length trees.
  Proof. intros (rest & (_ & _ & _ & <- & _) & _). symmetry. apply map_length. Qed.
  Lemma sits_toks s ys trees : sits s ys trees -> ps_toks s = toks /\ length ys <= length toks.
  Proof. intros (rest & (T & _ & <- & _) & <-). split; [assumption|]. rewrite map_length, skipn_length. lia. Qed.
  Lemma sits_error s ys trees tag off : sits s ys trees -> sits (push_error s tag off) ys trees.
  Proof. exact (fun S => S). Qed.
End Sits.

(** The tokens of pieces. *)
Lemma toklen_app a b : toklen (a ++ b) = toklen a + toklen b.
Proof. unfold toklen. now rewrite map_app, list_sum_app. Qed.
Lemma toklen_cons t r : toklen (t :: r) = (tk_end t - tk_start t) + toklen r.
Proof. reflexivity. Qed.
Lemma toklen_spans ps : forall off, toklen (spans off ps) <= length (encode (text_of_pieces ps)).
Proof.
  induction ps as [| [k s] r IH]; intros off; [cbn; lia|]. change (text_of_pieces ((k, s) :: r)) with (s ++ text_of_pieces r). rewrite encode_app, app_length. specialize (IH (off + length (encode s))).
  destruct k; cbn [spans app]; [rewrite toklen_cons; cbn [tk_end tk_start]|]; lia.
Qed.
Lemma tokleaf_span k off s : tokleaf (Token k off (off + length (encode s))) = leaf k s.
Proof. unfold tokleaf, leaf. cbn. f_equal. lia. Qed.

Lemma spans_yields ps : forall off, map tok_yield (spans off ps) = flat_map piece_yield ps.
Proof.
  induction ps as [| [k s] r IH]; intros off; [reflexivity|]. cbn [spans flat_map piece_yield fst snd]. rewrite map_app, IH. f_equal. destruct k; [|reflexivity]. cbn. unfold tok_yield. cbn. do 2 f_equal. lia.
Qed.
Lemma spans_fit cs ps n k : text_of_pieces ps = cs -> (Z.of_nat (length (encode cs)) < 2 ^ 32)%Z -> (Z.of_nat (toklen (spans 0 ps ++ [Token k n n])) < 2 ^ 32)%Z.
Proof. intros <- L. rewrite toklen_app, toklen_cons. pose proof (toklen_spans ps 0). change (toklen []) with 0. cbn [tk_end tk_start]. lia. Qed.
Lemma yleaf_leaf k s : yleaf (k, length (encode s)) = leaf k s.
Proof. reflexivity. Qed.
