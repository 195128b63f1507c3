(** C82: trees on which the built-in rules have nothing to do. *)
From Verif Require Import Base Utf8 PrettyModel PrettySpec PrettyProofs TreeModel TreeSpec TreeProofs
  FormatModel FormatSpec FormatProofs.

(** The kinds of the inner nodes. *)
Fixpoint node_kinds (t : green) : list nat :=
  match t with GLeaf _ _ _ => [] | GNode k _ ch => k :: flat_map node_kinds ch end.

(** No node is a container or statement, and no punctuation is a comma. *)
Definition at_rest (container statement punctuation : nat -> bool) (t : green) (src : str) : Prop :=
  (forall k, In k (node_kinds t) -> container k = false /\ statement k = false) /\
  (forall k a b, In (k, a, b) (leaves t 0) -> punctuation k = true -> substr src a b <> [44%Z]).

(** Documents that only hold texts, and what they say. *)
Inductive says : doc -> str -> Prop :=
| SText s : says (Text s) s
| SConcat ds s : says_all ds s -> says (Concat ds) s
with says_all : list doc -> str -> Prop :=
| SNone : says_all [] []
| SMore d ds s r : says d s -> says_all ds r -> says_all (d :: ds) (s ++ r).
Scheme says_ind2 := Induction for says Sort Prop with says_all_ind2 := Induction for says_all Sort Prop.
Combined Scheme says_both from says_ind2, says_all_ind2.

Lemma render_says cfg : (forall d s, says d s -> forall b p, output (render cfg d b p) = output p ++ s) /\
  (forall ds s, says_all ds s -> forall b p, output (render cfg (Concat ds) b p) = output p ++ s).
Proof.
  apply says_both.
  - reflexivity.
  - intros ds s _ IH. exact IH.
  - intros b p. cbn. now rewrite app_nil_r.
  - intros d ds s r _ IH1 _ IH2 b p. change (render cfg (Concat (d :: ds)) b p) with (render cfg (Concat ds) b (render cfg d b p)).
    now rewrite IH2, IH1, app_assoc.
Qed.

Lemma format_rests co st pu src : forall t, built t -> forall c off d,
  (forall k, In k (node_kinds t) -> co k = false /\ st k = false) ->
  (forall k a b, In (k, a, b) (leaves t off) -> pu k = true -> substr src a b <> [44%Z]) ->
  format_tree (builtin co st pu) src c t off = Ok d -> says d (substr src off (off + width t)).
Proof.
  induction t as [k n m|k n ch IH] using green_ind'; intros Hb c off d Hk Hp E; simpl in E.
  - assert (H := Hp k off (off + n) (or_introl eq_refl)). unfold format_token in E. rewrite builtin_eq in E.
    unfold apply_token_rules in E. cbn [filter r_on_token rule_indent rule_comma rule_statement l_kind] in E.
    destruct (str_get src off (off + n)) as [s|] eqn:Es.
    + pose proof (str_get_substr _ _ _ _ Es) as ->. destruct (pu k) eqn:Ep; cbn [first_doc r_token rule_comma l_start l_end] in E; rewrite ?Es in E.
      * destruct (str_same (substr src off (off + n)) [44%Z]) eqn:Ec; [apply str_same_spec in Ec; elim (H eq_refl Ec)|].
        rewrite ?Es in E. injection E as <-. constructor.
      * injection E as <-. constructor.
    + destruct (pu k); cbn [first_doc r_token rule_comma l_start l_end] in E; rewrite ?Es in E; discriminate.
  - fold (format_list (builtin co st pu) src (enter c k)) in E.
    destruct (Hk k (or_introl eq_refl)) as [K1 K2].
    unfold apply_node_rules in E. rewrite builtin_eq in E. cbn [filter r_on_node rule_indent rule_comma rule_statement n_kind] in E.
    rewrite K1, K2 in E. cbn [first_doc] in E. rewrite <- builtin_eq in E.
    destruct (format_list (builtin co st pu) src (enter c k) ch off) as [ds|e|] eqn:El; try discriminate. injection E as <-.
    constructor. cbn [width]. apply built_node in Hb. destruct Hb as (Hb & _). rewrite leaves_eq in Hp.
    assert (Hk' : forall x, In x (flat_map node_kinds ch) -> co x = false /\ st x = false) by (intros x Hx; apply Hk; now right).
    clear Hk K1 K2 n. revert off ds El Hp. induction ch as [|x ch IHch]; intros off ds El Hp; cbn [format_list] in El.
    + injection El as <-. cbn. rewrite Nat.add_0_r. unfold substr. rewrite Nat.sub_diag. constructor.
    + inversion Hb as [|? ? Hx Hb']; inversion IH as [|? ? IHx IH']; subst. cbn [lay] in Hp.
      destruct (format_tree (builtin co st pu) src (enter c k) x off) as [d0|e|] eqn:E0; try discriminate.
      destruct (format_list (builtin co st pu) src (enter c k) ch (off + glen x)) as [ds0|e|] eqn:E1; try discriminate.
      injection El as <-. cbn [map]. rewrite list_sum_cons.
      rewrite (substr_app src off (off + width x) (off + (width x + list_sum (map width ch)))) by lia. constructor.
      * eapply (IHx Hx); [| |exact E0].
        -- intros y Hy. apply Hk'. cbn. apply in_or_app. now left.
        -- intros y a b Hy. apply Hp. apply in_or_app. now left.
      * rewrite glen_width in E1 by assumption. rewrite Nat.add_assoc. apply IHch; [exact IH'|exact Hb'| |exact E1|].
        -- intros y Hy. apply Hk'. cbn. apply in_or_app. now right.
        -- intros y a b Hy. apply Hp. apply in_or_app. now right.
Qed.

Lemma format_at_rest co st pu cfg t src out changed : built t -> width t = length src -> at_rest co st pu t src ->
  format cfg (builtin co st pu) t src = Ok (out, changed) -> out = finalize cfg src /\ changed = negb (str_same out src).
Proof.
  intros Hb Hw [H1 H2] E. unfold format in E. destruct (format_tree _ _ _ _ _) as [d|e|] eqn:Ef; try discriminate.
  injection E as <- <-. split; [|reflexivity].
  apply (format_rests co st pu src t Hb) in Ef; [|exact H1 | exact H2]. cbn in Ef. rewrite Hw in Ef. unfold substr in Ef. cbn in Ef.
  rewrite Nat.sub_0_r, firstn_all in Ef. unfold print. now rewrite (proj1 (render_says cfg) _ _ Ef).
Qed.

(** ** Laying out the end of a text *)
Lemma trim_split s : exists b, s = trim_end_blanks s ++ b /\ Forall blank b /\ (forall x c, trim_end_blanks s = x ++ [c] -> ~ blank c).
Proof.
  assert (G : forall r, exists b, rev r = rev (drop_blanks r) ++ b /\ Forall blank b /\ (forall x c, rev (drop_blanks r) = x ++ [c] -> ~ blank c)).
  { clear s. intros r. induction r as [|c r IH].
    - exists []. cbn. split; [reflexivity|]. split; [constructor|]. intros x c E. destruct x; discriminate.
    - cbn [drop_blanks]. destruct (((c =? 32) || (c =? 9))%Z) eqn:Ec.
      + destruct IH as (b & E & F & G). exists (b ++ [c]). cbn [rev]. rewrite E at 1. rewrite app_assoc. split; [reflexivity|].
        split; [apply Forall_app; split; [exact F | constructor; [unfold blank; lia | constructor]] | exact G].
      + exists []. rewrite app_nil_r. split; [reflexivity|]. split; [constructor|]. intros x y E. cbn [rev] in E.
        apply app_inj_tail in E. destruct E as [_ <-]. unfold blank. lia. }
  specialize (G (rev s)). rewrite rev_involutive in G. exact G.
Qed.

Lemma trim_none s : (forall x c, s = x ++ [c] -> ~ blank c) -> trim_end_blanks s = s.
Proof.
  intros H. destruct (trim_split s) as (b & E & F & _). destruct b as [|c b _] using rev_ind; [rewrite app_nil_r in E; auto|].
  exfalso. apply (H (trim_end_blanks s ++ b) c); [rewrite E at 1; now rewrite app_assoc|].
  apply Forall_app in F. destruct F as [_ F]. now inversion F.
Qed.

Lemma trim_idem s : trim_end_blanks (trim_end_blanks s) = trim_end_blanks s.
Proof. apply trim_none. destruct (trim_split s) as (b & _ & _ & H). exact H. Qed.

Lemma ends_lf s : ends_with_lf (s ++ [10%Z]) = true.
Proof. unfold ends_with_lf. rewrite rev_app_distr. reflexivity. Qed.
Lemma ending_lf cfg : exists e, line_ending_string cfg = e ++ [10%Z].
Proof. unfold line_ending_string. destruct (line_end cfg); [now exists [] | now exists [13%Z] | now exists []]. Qed.

Lemma finalize_idem cfg s : finalize cfg (finalize cfg s) = finalize cfg s.
Proof.
  unfold finalize at 2 3. set (t := if trim_trailing_whitespace cfg then trim_end_blanks s else s).
  assert (Ht : (if trim_trailing_whitespace cfg then trim_end_blanks t else t) = t).
  { unfold t. destruct (trim_trailing_whitespace cfg); [apply trim_idem | reflexivity]. }
  destruct (insert_final_newline cfg && negb (is_empty t) && negb (ends_with_lf t)) eqn:E.
  - destruct (ending_lf cfg) as (e & ->). rewrite app_assoc. unfold finalize.
    assert (X : (if trim_trailing_whitespace cfg then trim_end_blanks ((t ++ e) ++ [10%Z]) else (t ++ e) ++ [10%Z]) = (t ++ e) ++ [10%Z]).
    { destruct (trim_trailing_whitespace cfg); [|reflexivity]. apply trim_none. intros x c Ex. apply app_inj_tail in Ex. destruct Ex as [_ <-].
      unfold blank. lia. }
    rewrite X, ends_lf. cbn. now rewrite andb_false_r.
  - unfold finalize. rewrite Ht, E. reflexivity.
Qed.

(** What a formatted text may differ in: the blanks at its end and a missing last line end. *)
Definition tidied (cfg : config) (src out : str) : Prop := exists core blanks,
  src = core ++ blanks /\ Forall blank blanks /\
  (trim_trailing_whitespace cfg = false -> blanks = []) /\
  (trim_trailing_whitespace cfg = true -> forall x c, core = x ++ [c] -> ~ blank c) /\
  ((out = core /\ (insert_final_newline cfg = false \/ core = [] \/ exists x, core = x ++ [10%Z])) \/
   (out = core ++ line_ending_string cfg /\ insert_final_newline cfg = true /\ core <> [] /\ forall x, core <> x ++ [10%Z])).

Lemma ends_lf_iff s : ends_with_lf s = true <-> exists x, s = x ++ [10%Z].
Proof.
  split; [|intros (x & ->); apply ends_lf]. unfold ends_with_lf. intros H. destruct (rev s) as [|c r] eqn:E; [discriminate|].
  exists (rev r). rewrite <- (rev_involutive s), E. cbn. f_equal. f_equal. lia.
Qed.

Lemma finalize_tidied cfg s : tidied cfg s (finalize cfg s).
Proof.
  unfold finalize. set (t := if trim_trailing_whitespace cfg then trim_end_blanks s else s).
  assert (Ht : exists b, s = t ++ b /\ Forall blank b /\ (trim_trailing_whitespace cfg = false -> b = []) /\
    (trim_trailing_whitespace cfg = true -> forall x c, t = x ++ [c] -> ~ blank c)).
  { unfold t. destruct (trim_trailing_whitespace cfg).
    - destruct (trim_split s) as (b & H1 & H2 & H3). exists b. split; [exact H1|]. split; [exact H2|]. split; [discriminate | auto].
    - exists []. rewrite app_nil_r. split; [reflexivity|]. split; [constructor|]. split; [reflexivity | discriminate]. }
  destruct Ht as (b & H1 & H2 & H3 & H4). exists t, b. split; [exact H1|]. split; [exact H2|]. split; [exact H3|]. split; [exact H4|].
  destruct (insert_final_newline cfg) eqn:Ei; cbn [andb]; [|left; auto].
  destruct t as [|z t']; [left; auto|]. cbn [is_empty negb andb]. destruct (ends_with_lf (z :: t')) eqn:El; cbn [negb].
  - left. split; [reflexivity|]. right. right. now apply ends_lf_iff.
  - right. split; [reflexivity|]. split; [reflexivity|]. split; [discriminate|]. intros x Ex.
    assert (X : ends_with_lf (z :: t') = true) by (apply ends_lf_iff; eauto). congruence.
Qed.

(** C82, for trees on which no built-in rule has anything to do: only the end of the text changes, and formatting the result,
    with any tree of it that is also at rest, changes nothing. *)
Theorem formatting_idempotent_partial : forall container statement punctuation cfg t src out changed,
  built t -> width t = length src -> at_rest container statement punctuation t src ->
  format cfg (builtin container statement punctuation) t src = Ok (out, changed) ->
  tidied cfg src out /\
  forall t' out' changed', built t' -> width t' = length out -> at_rest container statement punctuation t' out ->
    format cfg (builtin container statement punctuation) t' out = Ok (out', changed') -> out' = out /\ changed' = false.
Proof.
  intros co st pu cfg t src out changed Hb Hw Hr E. apply format_at_rest in E; auto. destruct E as [-> _].
  split; [apply finalize_tidied|]. intros t' out' changed' Hb' Hw' Hr' E'. apply format_at_rest in E'; auto. destruct E' as [-> ->].
  rewrite finalize_idem. split; [reflexivity|]. destruct (str_same (finalize cfg src) (finalize cfg src)) eqn:Es; [reflexivity|].
  assert (X : str_same (finalize cfg src) (finalize cfg src) = true) by now apply str_same_spec. congruence.
Qed.
Print Assumptions formatting_idempotent_partial.

Definition plain_tree (last : list green) : green :=
  match new_node 7 ([GLeaf 3 1 None; GLeaf 4 2 None] ++ last) with Some t => t | None => GLeaf 0 0 None end.
Example formatting_idempotent_case :
  at_rest (Nat.eqb 1) (Nat.eqb 2) (Nat.eqb 3) (plain_tree [GLeaf 5 2 None]) (lit ";ab  ") /\
  format default_config (builtin (Nat.eqb 1) (Nat.eqb 2) (Nat.eqb 3)) (plain_tree [GLeaf 5 2 None]) (lit ";ab  ") = Ok (lit ";ab" ++ [10%Z], true) /\
  format default_config (builtin (Nat.eqb 1) (Nat.eqb 2) (Nat.eqb 3)) (plain_tree [GLeaf 6 1 None]) (lit ";ab" ++ [10%Z]) = Ok (lit ";ab" ++ [10%Z], false).
Proof.
  split; [|split; reflexivity]. split.
  - intros k H. cbn in H. destruct H as [<-|[]]. split; reflexivity.
  - intros k a b H. cbn in H. repeat (destruct H as [H|H]; [injection H as <- <- <-; intros _; discriminate|]). contradiction.
Qed.
