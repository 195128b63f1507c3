From Verif Require Import Base TreeModel TreeSpec.

Lemma green_ind' : forall P : green -> Prop,
  (forall k n m, P (GLeaf k n m)) ->
  (forall k n ch, Forall P ch -> P (GNode k n ch)) ->
  forall t, P t.
Proof.
  intros P Hl Hn. fix IH 1. intros [k n m | k n ch]; [apply Hl|]. apply Hn.
  induction ch as [| c r IHr]; constructor; [apply IH | exact IHr].
Qed.

Lemma built_node : forall k n ch, built (GNode k n ch) ->
  Forall built ch /\ n = sum_len ch.
Proof.
  intros k n ch H. inversion H as [| k' ch' t Hf Hnew]. subst. unfold new_node in Hnew.
  destruct (fits_u32 (sum_len ch')); [|discriminate]. injection Hnew as <- <- <-. auto.
Qed.

Lemma built_ind' : forall P : green -> Prop,
  (forall k n m, P (GLeaf k n m)) ->
  (forall k ch, Forall built ch -> Forall P ch -> P (GNode k (sum_len ch) ch)) ->
  forall t, built t -> P t.
Proof.
  intros P Hl Hn. induction t as [k n m | k n ch IH] using green_ind'; intros Hb; [apply Hl|].
  destruct (built_node _ _ _ Hb) as [Hf ->]. apply Hn; [assumption|].
  rewrite Forall_forall in *. auto.
Qed.

Lemma glen_width : forall t, built t -> glen t = width t.
Proof.
  apply built_ind'; [reflexivity|]. intros k ch _ IH. cbn [glen width].
  induction ch as [| c r IHr]; [reflexivity|]. inversion IH; subst. cbn. rewrite H1. f_equal. now apply IHr.
Qed.

Lemma sum_len_width : forall ch, Forall built ch -> sum_len ch = list_sum (map width ch).
Proof. induction 1 as [| c r Hc _ IH]; [reflexivity|]. cbn. rewrite IH, glen_width by assumption. reflexivity. Qed.

Lemma node_len : forall k n ch, built (GNode k n ch) -> n = list_sum (map width ch).
Proof. intros k n ch H. destruct (built_node _ _ _ H) as [Hf ->]. now apply sum_len_width. Qed.

Lemma elements_eq : forall t off, elements t off =
  (t, off) :: match t with GLeaf _ _ _ => [] | GNode _ _ ch => lay elements off ch end.
Proof.
  intros [k n m | k n ch] off; [reflexivity|]. cbn [elements]. f_equal.
  revert off. induction ch as [| c r IH]; intros off; [reflexivity|]. cbn [lay]. now rewrite IH.
Qed.

Lemma leaves_eq : forall t off, leaves t off =
  match t with GLeaf k n _ => [(k, off, off + n)] | GNode _ _ ch => lay leaves off ch end.
Proof.
  intros [k n m | k n ch] off; [reflexivity|]. cbn [leaves].
  revert off. induction ch as [| c r IH]; intros off; [reflexivity|]. cbn [lay]. now rewrite IH.
Qed.

Lemma lay_app : forall A (f : green -> nat -> list A) a b off,
  lay f off (a ++ b) = lay f off a ++ lay f (off + list_sum (map width a)) b.
Proof.
  induction a as [| c a IH]; intros b off.
  - cbn. now rewrite Nat.add_0_r.
  - cbn [lay app map list_sum fold_right]. rewrite IH, app_assoc. do 2 f_equal. unfold list_sum. lia.
Qed.

Lemma lay_length : forall A (f : green -> nat -> list A) (m : green -> nat) ch off,
  Forall (fun c => forall o, length (f c o) = m c) ch -> length (lay f off ch) = list_sum (map m ch).
Proof.
  induction ch as [| c r IH]; intros off H; [reflexivity|]. inversion H; subst. cbn [lay map list_sum fold_right].
  rewrite app_length, H2. f_equal. now apply IH.
Qed.

Lemma elements_length : forall t off, length (elements t off) = size t.
Proof.
  induction t as [k n m | k n ch IH] using green_ind'; intros off; rewrite elements_eq; [reflexivity|].
  cbn [length size]. f_equal. now apply lay_length.
Qed.

(** *** Tiling *)
Lemma tiles_app : forall A (sp : A -> nat * nat) l1 l2 a b c,
  tiles sp a l1 b -> tiles sp b l2 c -> tiles sp a (l1 ++ l2) c.
Proof. induction 1; intros; cbn [app]; [assumption|]. constructor; auto. Qed.

Lemma tiles_le : forall A (sp : A -> nat * nat) l a b, tiles sp a l b -> a <= b.
Proof. induction 1; lia. Qed.

Lemma leaves_tile : forall t off, tiles leaf_span off (leaves t off) (off + width t).
Proof.
  induction t as [k n m | k n ch IH] using green_ind'; intros off; rewrite leaves_eq.
  - apply TCons; cbn; [reflexivity | lia | constructor].
  - cbn [width]. revert off. induction ch as [| c r IHr]; intros off.
    + cbn. rewrite Nat.add_0_r. constructor.
    + inversion IH; subst. cbn [lay map list_sum fold_right]. apply tiles_app with (off + width c); [auto|].
      rewrite Nat.add_assoc. now apply IHr.
Qed.

Lemma tiles_parts : forall A (sp : A -> nat * nat) l a b x l1 l2, tiles sp a l b -> l = l1 ++ x :: l2 ->
  (forall y, In y l1 -> snd (sp y) <= fst (sp x)) /\ (forall y, In y l2 -> snd (sp x) <= fst (sp y)).
Proof.
  intros A sp l a b x l1 l2 H. revert x l1 l2. induction H as [| a y l e H1 H2 H3 IH]; intros x l1 l2 E.
  - destruct l1; discriminate.
  - destruct l1 as [| z l1]; injection E as -> ->.
    + split; [contradiction|]. intros y Hy. clear IH.
      assert (G : forall a b l, tiles sp a l b -> forall y, In y l -> a <= fst (sp y)).
      { clear. induction 1 as [| a x l e H1 H2 H3 IH]; intros y []; [subst; lia|]. specialize (IH y H). lia. }
      eapply G; eassumption.
    + destruct (IH x l1 l2 eq_refl) as [G1 G2]. split; [|assumption].
      intros y [-> | Hy]; [|auto].
      assert (G : forall a b l, tiles sp a l b -> forall y, In y l -> a <= fst (sp y)).
      { clear. induction 1 as [| a x l e H1 H2 H3 IH]; intros y []; [subst; lia|]. specialize (IH y H). lia. }
      eapply G; [eassumption|]. apply in_or_app. right. now left.
Qed.

(** *** Children *)
Lemma Forall_firstn : forall A (P : A -> Prop) n l, Forall P l -> Forall P (firstn n l).
Proof. intros A P n l H. revert n. induction H; intros [| n]; cbn; constructor; auto. Qed.

Lemma fold_off : forall l off, fold_left (fun o c => o + glen c) l off = off + sum_len l.
Proof. induction l as [| c l IH]; intros off; cbn; [lia|]. rewrite IH. lia. Qed.

Lemma children_from_spec : forall ch fuel i off, Forall built ch -> length ch - i < fuel ->
  children_from fuel ch i off = lay (fun c o => [red_of c o]) off (skipn i ch).
Proof.
  intros ch fuel. induction fuel as [| f IH]; intros i off Hb Hf; [lia|]. cbn [children_from].
  destruct (nth_error ch i) as [c|] eqn:E.
  - assert (Hi : i < length ch) by (apply nth_error_Some; congruence).
    assert (Hs : skipn i ch = c :: skipn (S i) ch).
    { clear -E. revert i E. induction ch as [| x ch IH]; intros [| i] E; cbn in *; try discriminate.
      - now injection E as ->.
      - now apply IH. }
    rewrite Hs. cbn [lay app]. f_equal. rewrite glen_width.
    + apply IH; [assumption | lia].
    + rewrite Forall_forall in Hb. apply Hb. eapply nth_error_In; eassumption.
  - apply nth_error_None in E. rewrite skipn_all2 by lia. reflexivity.
Qed.

Lemma red_children_spec : forall k n ch off, built (GNode k n ch) ->
  red_children (RNode k n ch off) = lay (fun c o => [red_of c o]) off ch.
Proof.
  intros k n ch off H. destruct (built_node _ _ _ H) as [Hf _]. unfold red_children.
  rewrite children_from_spec by (assumption || lia). reflexivity.
Qed.

Lemma red_of_span : forall c off, built c -> red_span (red_of c off) = (off, off + width c).
Proof.
  intros [k n m | k n ch] off H; [reflexivity|]. cbn [red_of red_span]. now rewrite (node_len _ _ _ H).
Qed.

Lemma children_tile : forall ch off, Forall built ch ->
  tiles red_span off (lay (fun c o => [red_of c o]) off ch) (off + list_sum (map width ch)).
Proof.
  induction ch as [| c r IH]; intros off H; cbn [lay map list_sum fold_right app].
  - rewrite Nat.add_0_r. constructor.
  - inversion H; subst. apply TCons; rewrite red_of_span by assumption; cbn [fst snd]; [reflexivity | lia |].
    rewrite Nat.add_assoc. now apply IH.
Qed.

Lemma lay_nth : forall ch off i, Forall built ch ->
  nth_error (lay (fun c o => [red_of c o]) off ch) i = child_at ch off i.
Proof.
  unfold child_at. induction ch as [| c r IH]; intros off i H.
  - destruct i; reflexivity.
  - inversion H; subst. destruct i as [| i]; cbn [lay app nth_error firstn fold_left]; [reflexivity|].
    rewrite IH by assumption. now rewrite glen_width.
Qed.

Lemma child_at_some : forall ch off i c, Forall built ch -> nth_error ch i = Some c ->
  child_at ch off i = Some (red_of c (off + list_sum (map width (firstn i ch)))).
Proof.
  intros ch off i c Hb E. unfold child_at. rewrite E, fold_off, sum_len_width; [reflexivity|].
  now apply Forall_firstn.
Qed.

(** *** Lookup *)
Lemma index_loop_spec : forall ch rel idx pos, Forall built ch -> pos <= rel ->
  rel < pos + list_sum (map width ch) ->
  exists i c, index_loop rel ch idx pos = Some (idx + i) /\ nth_error ch i = Some c /\
    pos + list_sum (map width (firstn i ch)) <= rel < pos + list_sum (map width (firstn i ch)) + width c.
Proof.
  induction ch as [| c r IH]; intros rel idx pos Hb Hp Hr; cbn [map list_sum fold_right] in Hr; [lia|].
  inversion Hb; subst. cbn [index_loop]. rewrite glen_width by assumption.
  destruct (rel <? pos + width c) eqn:E.
  - exists 0, c. rewrite Nat.add_0_r. cbn. split; [reflexivity|]. split; [reflexivity|]. lia.
  - destruct (IH rel (S idx) (pos + width c)) as (i & c' & H3 & H4 & H5); [assumption | lia | |].
    + change (fold_right Nat.add 0 (map width r)) with (list_sum (map width r)) in Hr. lia.
    + exists (S i), c'. replace (idx + S i) with (S idx + i) by lia.
      split; [assumption|]. split; [assumption|]. cbn [firstn map list_sum fold_right].
      change (fold_right Nat.add 0 (map width (firstn i r))) with (list_sum (map width (firstn i r))). lia.
Qed.

Lemma list_max_in : forall x l, In x l -> x <= list_max l.
Proof.
  intros x l H. pose proof (list_max_le l (list_max l)) as [G _]. specialize (G (le_n _)).
  rewrite Forall_forall in G. auto.
Qed.

Lemma nth_split_at : forall A (l : list A) i c, nth_error l i = Some c ->
  l = firstn i l ++ c :: skipn (S i) l.
Proof.
  induction l as [| x l IH]; intros [| i] c E; cbn in *; try discriminate.
  - injection E as ->. reflexivity.
  - f_equal. now apply IH.
Qed.

Lemma leaf_at_in : forall t, built t -> forall k n ch, t = GNode k n ch ->
  forall fuel off o, depth t <= S fuel -> off <= o < off + width t ->
  exists kd a b, leaf_at_offset fuel n ch off o = Some (Some (kd, a, b)) /\
    In (kd, a, b) (leaves t off) /\ a <= o < b.
Proof.
  apply (built_ind' (fun t => forall k n ch, t = GNode k n ch ->
  forall fuel off o, depth t <= S fuel -> off <= o < off + width t ->
  exists kd a b, leaf_at_offset fuel n ch off o = Some (Some (kd, a, b)) /\
    In (kd, a, b) (leaves t off) /\ a <= o < b)); [discriminate|].
  intros k0 ch0 Hb IH k n ch [= -> <- <-] fuel off o Hd Ho.
  cbn [width] in Ho. rewrite leaves_eq.
  destruct fuel as [| f].
  { cbn [depth] in Hd. destruct ch0 as [| c r]; [cbn in Ho; lia|].
    cbn [map] in Hd. pose proof (list_max_in (depth c) (depth c :: map depth r) ltac:(now left)).
    destruct c; cbn [depth] in *; lia. }
  cbn [leaf_at_offset]. unfold child_at_offset, child_index_at_offset.
  rewrite sum_len_width by assumption.
  replace ((o <? off) || (off + list_sum (map width ch0) <=? o)) with false by (symmetry; apply orb_false_iff; lia).
  destruct (index_loop_spec ch0 (o - off) 0 0 Hb) as (i & c & H1 & H2 & H3); [lia | lia |].
  cbn [Nat.add] in H1. rewrite H1, (child_at_some ch0 off i c Hb H2).
  assert (Hc : built c) by (rewrite Forall_forall in Hb; apply Hb; eapply nth_error_In; eassumption).
  assert (Hin : forall x, In x (leaves c (off + list_sum (map width (firstn i ch0)))) -> In x (lay leaves off ch0)).
  { intros x Hx. rewrite (nth_split_at _ ch0 i c H2), lay_app. apply in_or_app. right. cbn [lay].
    apply in_or_app. now left. }
  assert (Hdc : depth c <= S f).
  { cbn [depth] in Hd. pose proof (list_max_in (depth c) (map depth ch0)) as G.
    assert (In (depth c) (map depth ch0)) by (apply in_map; eapply nth_error_In; eassumption).
    specialize (G H). lia. }
  destruct c as [kd ln m | kd ln chc].
  - cbn [red_of]. eexists _, _, _. split; [reflexivity|]. cbn [width] in H3. split; [|lia].
    apply Hin. now left.
  - cbn [red_of]. rewrite Forall_forall in IH. specialize (IH _ (nth_error_In _ _ H2) kd ln chc eq_refl f
      (off + list_sum (map width (firstn i ch0))) o Hdc ltac:(lia)).
    destruct IH as (kd' & a & b & G1 & G2 & G3). exists kd', a, b. auto.
Qed.

Lemma leaf_at_out : forall k n ch fuel off o, built (GNode k n ch) ->
  o < off \/ off + width (GNode k n ch) <= o -> leaf_at_offset (S fuel) n ch off o = Some None.
Proof.
  intros k n ch fuel off o Hb Ho. cbn [leaf_at_offset width] in *. unfold child_at_offset, child_index_at_offset.
  rewrite (node_len _ _ _ Hb).
  replace ((o <? off) || (off + list_sum (map width ch) <=? o)) with true by (symmetry; apply orb_true_iff; lia).
  reflexivity.
Qed.

(** *** Cursor *)
Lemma at_place_built : forall root c, built root -> at_place root c ->
  built (tc_current c) /\ Forall (fun f => built (GNode (fr_kind f) (fr_len f) (fr_children f))) (tc_stack c).
Proof.
  intros root c Hb H. induction H as [| k n ch i c off st H IH E]; cbn [tc_current tc_stack] in *.
  - split; [assumption | constructor].
  - destruct IH as [IH1 IH2]. destruct (built_node _ _ _ IH1) as [Hf _]. split.
    + rewrite Forall_forall in Hf. apply Hf. eapply nth_error_In; eassumption.
    + constructor; assumption.
Qed.

Lemma at_place_parent : forall root c k n ch i off st, at_place root c ->
  tc_stack c = Frame k n ch i off :: st ->
  at_place root (TCursor (GNode k n ch) off st) /\ nth_error ch i = Some (tc_current c) /\
  tc_offset c = off + list_sum (map width (firstn i ch)).
Proof. intros root c k n ch i off st H E. destruct H; cbn in *; [discriminate|]. injection E as <- <- <- <- <- <-. auto. Qed.

Lemma list_sum_cons : forall x l, list_sum (x :: l) = x + list_sum l.
Proof. reflexivity. Qed.

Lemma sum_firstn_S : forall ch i c, nth_error ch i = Some c ->
  list_sum (map width (firstn (S i) ch)) = list_sum (map width (firstn i ch)) + width c.
Proof.
  induction ch as [| x ch IH]; intros [| i] c E; cbn [nth_error firstn map] in *; try discriminate.
  - injection E as ->. cbn. lia.
  - rewrite !list_sum_cons. rewrite <- Nat.add_assoc, <- (IH i c E). reflexivity.
Qed.

Lemma skipn_cons_nth : forall A (l : list A) i c, nth_error l i = Some c -> skipn i l = c :: skipn (S i) l.
Proof.
  induction l as [| x l IH]; intros [| i] c E; cbn [nth_error skipn] in *; try discriminate.
  - now injection E as ->.
  - now apply IH.
Qed.

Lemma step_over_spec : forall root c b c', built root -> at_place root c -> step_over c = (b, c') ->
  if b then at_place root c' /\ elements (tc_current c') (tc_offset c') ++ remaining (tc_stack c') = remaining (tc_stack c)
  else c' = c /\ match tc_stack c with
                 | [] => True
                 | f :: st => remaining (f :: st) = remaining st
                 end.
Proof.
  intros root c b c' Hb Hp Hs. unfold step_over in Hs. destruct (tc_stack c) as [| [k n ch i off] st] eqn:Est.
  - injection Hs as <- <-. auto.
  - destruct (at_place_parent _ _ _ _ _ _ _ _ Hp Est) as (Hpp & Hn & Ho).
    destruct (at_place_built _ _ Hb Hp) as [Hcur _]. rewrite Nat.add_1_r in Hs.
    destruct (nth_error ch (S i)) as [sib|] eqn:E; injection Hs as <- <-.
    + rewrite Ho, glen_width by assumption. rewrite <- Nat.add_assoc, <- (sum_firstn_S ch i _ Hn).
      split; [now constructor|]. cbn [tc_current tc_offset tc_stack remaining].
      rewrite (skipn_cons_nth _ ch (S i) sib E). cbn [lay]. rewrite <- app_assoc.
      rewrite (sum_firstn_S ch (S i) sib E). now rewrite Nat.add_assoc.
    + split; [reflexivity|]. cbn [remaining]. apply nth_error_None in E. rewrite skipn_all2 by lia. reflexivity.
Qed.

Lemma out_over_spec : forall root fuel c b c', built root -> at_place root c -> length (tc_stack c) < fuel ->
  (match tc_stack c with [] => True | f :: st => remaining (f :: st) = remaining st end) ->
  out_over fuel c = (b, c') ->
  if b then at_place root c' /\ elements (tc_current c') (tc_offset c') ++ remaining (tc_stack c') = remaining (tc_stack c)
  else c' = tc_new root /\ remaining (tc_stack c) = [].
Proof.
  intros root. induction fuel as [| f IH]; intros c b c' Hb Hp Hf Hr Hs; [lia|].
  cbn [out_over] in Hs. unfold step_out in Hs. destruct (tc_stack c) as [| [k n ch i off] st] eqn:Est.
  - injection Hs as <- <-. inversion Hp; subst; [auto | discriminate].
  - destruct (at_place_parent _ _ _ _ _ _ _ _ Hp Est) as (Hpp & _).
    destruct (step_over (TCursor (GNode k n ch) off st)) as [ok c2] eqn:Eo.
    pose proof (step_over_spec _ _ _ _ Hb Hpp Eo) as Ho. cbn [tc_stack] in Ho.
    destruct ok.
    + injection Hs as <- <-. rewrite Hr. exact Ho.
    + destruct Ho as [-> Ho]. cbn [length] in Hf. rewrite Hr.
      apply (IH _ _ _ Hb Hpp) in Hs; [exact Hs | cbn [tc_stack]; lia | exact Ho].
Qed.

Lemma step_next_spec : forall root c b c', built root -> at_place root c -> step_next c = (b, c') ->
  if b then at_place root c' /\ elements (tc_current c') (tc_offset c') ++ remaining (tc_stack c') = remaining (tc_stack c)
  else c' = tc_new root /\ remaining (tc_stack c) = [].
Proof.
  intros root c b c' Hb Hp Hs. unfold step_next in Hs. destruct (step_over c) as [ok c1] eqn:Eo.
  pose proof (step_over_spec _ _ _ _ Hb Hp Eo) as Ho. destruct ok.
  - injection Hs as <- <-. exact Ho.
  - destruct Ho as [-> Ho]. eapply out_over_spec; [eassumption | eassumption | | exact Ho | exact Hs]. lia.
Qed.

Lemma step_into_spec : forall root c b c', at_place root c -> step_into c = (b, c') ->
  if b then at_place root c' /\ step_out c' = (true, c) /\
            elements (tc_current c') (tc_offset c') ++ remaining (tc_stack c')
            = tl (elements (tc_current c) (tc_offset c)) ++ remaining (tc_stack c)
  else c' = c /\ elements (tc_current c) (tc_offset c) = [(tc_current c, tc_offset c)].
Proof.
  intros root [cur off st] b c' Hp Hs. unfold step_into in Hs. cbn [tc_current tc_offset tc_stack] in *.
  destruct cur as [k n m | k n [| first r]]; injection Hs as <- <-.
  - split; reflexivity.
  - split; reflexivity.
  - split; [|split; [reflexivity|]].
    + pose proof (PChild root k n (first :: r) 0 first off st Hp eq_refl) as G.
      cbn [firstn map list_sum fold_right] in G. rewrite Nat.add_0_r in G. exact G.
    + rewrite (elements_eq (GNode k n (first :: r))). cbn [tc_current tc_offset tc_stack tl lay remaining].
      rewrite <- app_assoc. do 2 f_equal. cbn. f_equal. lia.
Qed.

Lemma step_spec : forall root c b c', built root -> at_place root c -> step c = (b, c') ->
  let rest := tl (elements (tc_current c) (tc_offset c)) ++ remaining (tc_stack c) in
  if b then at_place root c' /\ elements (tc_current c') (tc_offset c') ++ remaining (tc_stack c') = rest
  else c' = tc_new root /\ rest = [].
Proof.
  intros root c b c' Hb Hp Hs. cbv zeta. unfold step in Hs. destruct (step_into c) as [ok c1] eqn:Ei.
  pose proof (step_into_spec _ _ _ _ Hp Ei) as Hi. destruct ok.
  - injection Hs as <- <-. tauto.
  - destruct Hi as [-> Hi]. rewrite Hi. cbn [tl app].
    apply (step_next_spec root c b c' Hb Hp). exact Hs.
Qed.

Lemma cursor_walk_spec : forall root fuel c, built root -> at_place root c ->
  length (elements (tc_current c) (tc_offset c) ++ remaining (tc_stack c)) <= fuel ->
  cursor_walk fuel c = Some (elements (tc_current c) (tc_offset c) ++ remaining (tc_stack c), tc_new root).
Proof.
  intros root. induction fuel as [| f IH]; intros c Hb Hp Hf.
  - rewrite elements_eq in Hf. cbn in Hf. lia.
  - cbn [cursor_walk]. destruct (step c) as [more c'] eqn:Es.
    pose proof (step_spec _ _ _ _ Hb Hp Es) as H. cbv zeta in H.
    assert (He : elements (tc_current c) (tc_offset c) = (tc_current c, tc_offset c) :: tl (elements (tc_current c) (tc_offset c)))
      by (rewrite elements_eq; reflexivity).
    destruct more.
    + destruct H as [Hp' H]. rewrite He in Hf. rewrite (IH c' Hb Hp').
      * rewrite He at 1. cbn [app]. rewrite H. rewrite He at 2. reflexivity.
      * rewrite H. cbn [app length] in Hf. lia.
    + destruct H as [-> H]. rewrite He. cbn [app]. now rewrite H.
Qed.

(** *** PreOrder and visitor *)
Definition as_red (p : green * nat) : red := red_of (fst p) (snd p).

Lemma push_rev_spec : forall ch off st, Forall built ch ->
  push_rev (rev ch) (off + list_sum (map width ch)) st = Some (lay (fun c o => [red_of c o]) off ch ++ st).
Proof.
  intros ch. induction ch as [| c l IH] using rev_ind; intros off st Hb; [reflexivity|].
  apply Forall_app in Hb. destruct Hb as [Hl Hc]. inversion Hc; subst.
  rewrite rev_app_distr. cbn [rev app push_rev]. rewrite map_app, list_sum_app. cbn [map list_sum fold_right].
  rewrite glen_width by assumption.
  replace (off + (list_sum (map width l) + (width c + 0)) <? width c) with false by (symmetry; apply Nat.ltb_ge; lia).
  replace (off + (list_sum (map width l) + (width c + 0)) - width c) with (off + list_sum (map width l)) by lia.
  rewrite IH by assumption. rewrite lay_app. cbn [lay]. now rewrite <- app_assoc.
Qed.

Fixpoint lay_elements (ts : list (green * nat)) : list (green * nat) :=
  match ts with [] => [] | (t, o) :: r => elements t o ++ lay_elements r end.

Lemma lay_elements_app : forall a b, lay_elements (a ++ b) = lay_elements a ++ lay_elements b.
Proof. induction a as [| [t o] a IH]; intros b; cbn; [reflexivity|]. now rewrite IH, app_assoc. Qed.

Lemma lay_elements_lay : forall ch off, lay_elements (lay (fun c o => [(c, o)]) off ch) = lay elements off ch.
Proof. induction ch as [| c r IH]; intros off; cbn; [reflexivity|]. now rewrite IH. Qed.

Lemma map_lay : forall A B (g : A -> B) f ch off, map g (lay f off ch) = lay (fun c o => map g (f c o)) off ch.
Proof. induction ch as [| c r IH]; intros off; cbn; [reflexivity|]. now rewrite map_app, IH. Qed.

Lemma preorder_run_spec : forall fuel ts, Forall (fun p => built (fst p)) ts ->
  length (lay_elements ts) <= fuel ->
  preorder_run fuel (map as_red ts) = Some (map as_red (lay_elements ts)).
Proof.
  induction fuel as [| f IH]; intros [| [t o] ts] Hb Hf; try reflexivity.
  - cbn [lay_elements] in Hf. rewrite elements_eq in Hf. cbn in Hf. lia.
  - cbn [lay_elements] in Hf |- *. cbn [map preorder_run]. inversion Hb; subst. cbn [fst] in *.
    destruct t as [k n m | k n ch].
    + rewrite elements_eq in Hf. cbn [app length] in Hf. unfold as_red at 1. cbn [fst snd red_of].
      rewrite IH by (assumption || lia). reflexivity.
    + rewrite elements_eq in Hf |- *. unfold as_red at 1. cbn [fst snd red_of].
      rewrite (node_len _ _ _ H1). destruct (built_node _ _ _ H1) as [Hch _].
      rewrite push_rev_spec by assumption.
      assert (E : lay (fun c o => [red_of c o]) o ch ++ map as_red ts
                  = map as_red (lay (fun c o => [(c, o)]) o ch ++ ts)).
      { rewrite map_app, map_lay. reflexivity. }
      rewrite E, IH.
      * rewrite lay_elements_app, lay_elements_lay. cbn [app map]. unfold as_red at 2. cbn [fst snd red_of].
        now rewrite <- (node_len _ _ _ H1).
      * apply Forall_app. split; [|assumption]. clear -Hch. revert o.
        induction Hch; intros o; cbn; constructor; auto.
      * rewrite lay_elements_app, lay_elements_lay. cbn [app length] in Hf. lia.
Qed.

Lemma visit_spec : forall t, built t -> forall fuel off, depth t <= fuel ->
  visit fuel (red_of t off) = Some (map as_red (elements t off)).
Proof.
  apply (built_ind' (fun t => forall fuel off, depth t <= fuel ->
    visit fuel (red_of t off) = Some (map as_red (elements t off)))).
  - intros k n m [| f] off Hf; cbn in *; [lia | reflexivity].
  - intros k ch Hb IH [| f] off Hf; cbn [depth] in Hf; [lia|].
    rewrite elements_eq. cbn [red_of visit map].
    assert (Hbn : red_children (RNode k (sum_len ch) ch off) = lay (fun c o => [red_of c o]) off ch).
    { unfold red_children. rewrite children_from_spec by (assumption || lia). reflexivity. }
    rewrite Hbn.
    assert (Hd : Forall (fun c => depth c <= f) ch).
    { apply Forall_forall. intros c Hc. pose proof (list_max_in (depth c) (map depth ch) (in_map _ _ _ Hc)). lia. }
    assert (E : forall off, fold_right (fun c acc =>
                  match visit f c, acc with
                  | Some l, Some a => Some (l ++ a)
                  | _, _ => None
                  end) (Some []) (lay (fun c o => [red_of c o]) off ch) = Some (map as_red (lay elements off ch))).
    { clear Hbn Hf. intros o. revert o. induction ch as [| c r IHr]; intros o; [reflexivity|].
      inversion IH; inversion Hd; inversion Hb; subst. cbn [lay app fold_right].
      rewrite H1 by assumption. rewrite IHr by assumption. now rewrite map_app. }
    rewrite E. reflexivity.
Qed.
