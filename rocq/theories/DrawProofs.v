(** Lemmas about drawings of syntax trees. *)
From Verif Require Import Base Utf8 TreeModel GeoModel GeoSpec GeoProofs HiModel DrawModel DrawSpec.
Require Import NArith Nnat QArith Permutation.
Open Scope nat_scope.

Section green_induction.
  Variable P : green -> Prop.
  Hypothesis HL : forall k n m, P (GLeaf k n m).
  Hypothesis HN : forall k n ch, Forall P ch -> P (GNode k n ch).
  Fixpoint green_ind3 (t : green) : P t :=
    match t with
    | GLeaf k n m => HL k n m
    | GNode k n ch => HN k n ch ((fix each (l : list green) : Forall P l := match l with [] => Forall_nil P | c :: r => Forall_cons c (green_ind3 c) (each r) end) ch)
    end.
End green_induction.

Lemma draw_green_eq label t g : draw_green label t g =
  match g with
  | [] => None
  | id :: g =>
      match draw_list label (parts t) g with
      | None => None
      | Some (cs, g') => Some (VNode id (label (kind_of t)) None cs, g')
      end
  end.
Proof.
  destruct g as [| id g]; [now destruct t|]. destruct t as [k n m | k n ch]; [reflexivity|]. cbn [draw_green parts kind_of].
  match goal with |- match ?f ch g with _ => _ end = _ => assert (E : forall l h, f l h = draw_list label l h) end.
  { induction l as [| c r IH]; intros h; [reflexivity|]. cbn [draw_list]. destruct (draw_green label c h) as [[v h1]|]; [|reflexivity]. now rewrite IH. }
  now rewrite E.
Qed.

Lemma draw_list_cons label c r g : draw_list label (c :: r) g =
  match draw_green label c g with
  | None => None
  | Some (v, g1) => match draw_list label r g1 with None => None | Some (vs, g2) => Some (v :: vs, g2) end
  end.
Proof. reflexivity. Qed.

Lemma green_parts_ind (P : green -> Prop) : (forall t, Forall P (parts t) -> P t) -> forall t, P t.
Proof. intros H. induction t as [k n m | k n ch IH] using green_ind3; apply H; [constructor | exact IH]. Qed.

(** What is drawn shows the tree and is named by the numbers used. *)
Lemma draw_list_shows label l : Forall (fun t => forall g v g', draw_green label t g = Some (v, g') -> shows label t v /\ g = ids v ++ g') l ->
  forall g vs g', draw_list label l g = Some (vs, g') -> Forall2 (shows label) l vs /\ g = flat_map ids vs ++ g'.
Proof.
  induction 1 as [| c r Hc _ IH]; intros g vs g' E.
  - injection E as <- <-. split; [constructor | reflexivity].
  - rewrite draw_list_cons in E. destruct (draw_green label c g) as [[v g1]|] eqn:E1; [|discriminate].
    destruct (draw_list label r g1) as [[ws g2]|] eqn:E2; [|discriminate]. injection E as <- <-.
    destruct (Hc _ _ _ E1) as [S1 ->]. destruct (IH _ _ _ E2) as [S2 ->]. split; [now constructor|].
    cbn [flat_map]. now rewrite app_assoc.
Qed.

Lemma ids_flat l : map v_id (flat_map nodes_of l) = flat_map ids l.
Proof. induction l as [| t l IH]; [reflexivity|]. cbn [flat_map]. rewrite map_app, IH. reflexivity. Qed.

Lemma draw_shows label : forall t g v g', draw_green label t g = Some (v, g') -> shows label t v /\ g = ids v ++ g'.
Proof.
  induction t as [t IH] using green_parts_ind. intros g v g' E. rewrite draw_green_eq in E. destruct g as [| id g]; [discriminate|].
  destruct (draw_list label (parts t) g) as [[cs h]|] eqn:El; [|discriminate]. injection E as <- <-.
  destruct (draw_list_shows _ _ IH _ _ _ El) as [S ->]. split.
  - destruct t as [k n m | k n ch]; cbn [parts kind_of] in *; [inversion S; subst; constructor | now constructor].
  - unfold ids. rewrite nodes_of_eq. cbn [map v_id v_children app]. now rewrite ids_flat.
Qed.

Lemma draw_all_shows label l : forall g vs g', draw_list label l g = Some (vs, g') -> Forall2 (shows label) l vs /\ g = flat_map ids vs ++ g'.
Proof. apply draw_list_shows. apply Forall_forall. intros t _. apply draw_shows. Qed.

(** It is drawn as soon as the counter goes far enough. *)
Fixpoint weight (t : green) : nat :=
  match t with
  | GLeaf _ _ _ => 1
  | GNode _ _ ch => S ((fix sum (l : list green) : nat := match l with [] => 0 | c :: r => weight c + sum r end) ch)
  end.
Definition weights (l : list green) : nat := fold_right (fun c n => weight c + n) 0 l.
Lemma weight_eq t : weight t = S (weights (parts t)).
Proof. destruct t; reflexivity. Qed.

Lemma draw_list_enough label l : Forall (fun t => forall g, weight t <= length g -> exists v g', draw_green label t g = Some (v, g') /\ length g = weight t + length g') l ->
  forall g, weights l <= length g -> exists vs g', draw_list label l g = Some (vs, g') /\ length g = weights l + length g'.
Proof.
  induction 1 as [| c r Hc _ IH]; intros g Hg; [now exists [], g|]. cbn [weights fold_right] in *. fold (weights r) in *.
  rewrite draw_list_cons. destruct (Hc g ltac:(lia)) as (v & g1 & -> & L1). destruct (IH g1 ltac:(lia)) as (vs & g2 & -> & L2).
  do 2 eexists. split; [reflexivity | lia].
Qed.

Lemma draw_enough label : forall t g, weight t <= length g -> exists v g', draw_green label t g = Some (v, g') /\ length g = weight t + length g'.
Proof.
  induction t as [t IH] using green_parts_ind. intros g Hg. rewrite weight_eq in *. destruct g as [| id g]; [cbn in Hg; lia|]. cbn [length] in *.
  rewrite draw_green_eq. destruct (draw_list_enough label _ IH g ltac:(lia)) as (cs & g' & -> & L). do 2 eexists. split; [reflexivity | lia].
Qed.

(** Subtrees in order. *)
Lemma in_order_exists : forall t, exists l, in_order t l.
Proof.
  induction t as [t IH] using green_parts_ind. assert (H : exists ls, Forall2 in_order (parts t) ls).
  { induction IH as [| c r [l Hl] _ [ls Hls]]; [exists []; constructor | exists (l :: ls); now constructor]. }
  destruct H as [ls H]. eexists. constructor. exact H.
Qed.

Lemma shows_parts label t v : shows label t v -> v_label v = label (kind_of t) /\ v_size v = None /\ Forall2 (shows label) (parts t) (v_children v).
Proof. intros [k n m i | k n ch i cs F]; cbn; repeat split; [constructor | exact F]. Qed.

Lemma shows_order label : forall t v l, shows label t v -> in_order t l ->
  Forall2 (fun s w => v_label w = label (kind_of s) /\ v_size w = None) l (nodes_of v) /\
  Forall2 (fun s w => length (parts s) = length (v_children w)) l (nodes_of v).
Proof.
  induction t as [t IH] using green_parts_ind. intros v l S O. apply shows_parts in S. destruct S as (L & Z & F).
  inversion O as [t' ls Hl]; subst. rewrite nodes_of_eq.
  assert (G : Forall2 (fun s w => v_label w = label (kind_of s) /\ v_size w = None) (concat ls) (flat_map nodes_of (v_children v)) /\
              Forall2 (fun s w => length (parts s) = length (v_children w)) (concat ls) (flat_map nodes_of (v_children v))).
  { clear - IH F Hl. revert F ls Hl. generalize (v_children v). induction IH as [| c r Hc _ IHr]; intros vs F ls Hl.
    - inversion F; subst. inversion Hl; subst. split; constructor.
    - inversion F as [| x y xs ys Hx Hy]; subst. inversion Hl as [| a b as_ bs Ha Hb]; subst. cbn [concat flat_map].
      destruct (Hc _ _ Hx Ha) as [A1 A2]. destruct (IHr _ Hy _ Hb) as [B1 B2]. split; now apply Forall2_app. }
  destruct G as [G1 G2]. split; constructor; [now split | exact G1 | clear - F; induction F; cbn; congruence | exact G2].
Qed.

(** Counts *)
Lemma v_count_eq v : v_count v = S (fold_right (fun c n => v_count c + n) 0 (v_children v)).
Proof. destruct v; reflexivity. Qed.
Lemma v_leaves_eq v : v_leaves v = match v_children v with [] => 1 | cs => fold_right (fun c n => v_leaves c + n) 0 cs end.
Proof. destruct v as [i l s [| c r]]; reflexivity. Qed.
Lemma v_depth_eq v : v_depth v = S (fold_right (fun c n => Nat.max (v_depth c) n) 0 (v_children v)).
Proof. destruct v as [i l s [| c r]]; reflexivity. Qed.

Lemma count_nodes : forall v, v_count v = length (nodes_of v).
Proof.
  induction v as [v IH] using vtree_ind2. rewrite v_count_eq, nodes_of_eq. cbn [length]. f_equal.
  induction IH as [| c r Hc _ IHr]; [reflexivity|]. cbn [fold_right flat_map]. rewrite app_length. lia.
Qed.

Lemma leaves_nodes : forall v, v_leaves v = length (filter v_is_leaf (nodes_of v)).
Proof.
  induction v as [v IH] using vtree_ind2. rewrite v_leaves_eq, nodes_of_eq. cbn [filter].
  unfold v_is_leaf at 1. destruct (v_children v) as [| c r]; [reflexivity|]. revert IH. generalize (c :: r). clear. intros l IH.
  induction IH as [| c r Hc _ IHr]; [reflexivity|]. cbn [fold_right flat_map]. rewrite filter_app, app_length. lia.
Qed.

Lemma depth_deepest label : forall t v, shows label t v -> (exists s, below (v_depth v - 1) t s) /\ forall d s, below d t s -> d < v_depth v.
Proof.
  induction t as [t IH] using green_parts_ind. intros v S. apply shows_parts in S. destruct S as (_ & _ & F). rewrite v_depth_eq.
  set (m := fold_right (fun c n => Nat.max (v_depth c) n) 0 (v_children v)).
  assert (G : (m = 0 \/ exists c s, In c (parts t) /\ 0 < m /\ below (m - 1) c s) /\ forall c d s, In c (parts t) -> below d c s -> d < m).
  { subst m. clear - IH F. revert IH. induction F as [| c w r ws Hc _ IHr]; intros IH; [split; [now left | intros c d s []]|].
    apply Forall_cons_iff in IH. destruct IH as [IHc IH']. destruct (IHr IH') as [A B]. destruct (IHc w Hc) as [[s Hs] U]. clear IHr. cbn [fold_right].
    set (k := fold_right (fun c n => Nat.max (v_depth c) n) 0 ws) in *.
    assert (W : 0 < v_depth w) by (rewrite v_depth_eq; lia). split.
    - right. destruct (Nat.le_gt_cases k (v_depth w)) as [K | K].
      + exists c, s. rewrite Nat.max_l by lia. split; [now left|]. split; [lia | exact Hs].
      + rewrite Nat.max_r by lia. destruct A as [A | (c' & s' & Hc' & Hk & Hb)]; [lia|]. exists c', s'. split; [now right|]. now split.
    - intros c' d s' [<- | Hin] Hb; [specialize (U _ _ Hb); lia | specialize (B _ _ _ Hin Hb); lia]. }
  destruct G as [A B]. split.
  - destruct A as [-> | (c & s & Hc & Hm & Hb)]; [exists t; constructor|]. exists s. replace (S m - 1) with (S (m - 1)) by lia. econstructor; eassumption.
  - intros d s Hb. inversion Hb as [| d' t' c s' Hc Hd]; subst; [lia|]. specialize (B _ _ _ Hc Hd). lia.
Qed.

(** The red tree gives the same drawing. *)
Lemma children_from_greens ch : forall fuel i off, length ch - i < fuel ->
  Forall2 (fun c r => exists o, r = red_of c o) (skipn i ch) (children_from fuel ch i off).
Proof.
  induction fuel as [| f IH]; intros i off H; [lia|]. cbn [children_from]. destruct (nth_error ch i) as [c|] eqn:E.
  - assert (L : i < length ch) by (apply nth_error_Some; congruence).
    assert (K : skipn i ch = c :: skipn (S i) ch).
    { clear -E. revert i E. induction ch as [| x ch IH]; intros [| i] E; try discriminate; cbn in *; [now injection E as ->|]. now rewrite IH. }
    rewrite K. constructor; [now exists off | apply IH; lia].
  - apply nth_error_None in E. rewrite skipn_all2 by assumption. constructor.
Qed.

Fixpoint height (t : green) : nat :=
  match t with
  | GLeaf _ _ _ => 1
  | GNode _ _ ch => S ((fix most (l : list green) : nat := match l with [] => 0 | c :: r => Nat.max (height c) (most r) end) ch)
  end.
Lemma height_eq t : height t = S (fold_right (fun c n => Nat.max (height c) n) 0 (parts t)).
Proof. destruct t; reflexivity. Qed.

Lemma draw_red_same label : forall t o fuel g, height t <= fuel -> draw_red label fuel (red_of t o) g = draw_green label t g.
Proof.
  induction t as [t IH] using green_parts_ind. intros o fuel g Hf. rewrite height_eq in Hf. rewrite draw_green_eq.
  destruct fuel as [| f]; [lia|]. apply le_S_n in Hf. destruct g as [| id g]; [now destruct t|].
  destruct t as [k n m | k n ch]; [reflexivity|]. cbn [red_of draw_red parts kind_of red_children] in *.
  pose proof (children_from_greens ch (S (length ch)) 0 o ltac:(lia)) as F. rewrite skipn_O in F. revert F. generalize (children_from (S (length ch)) ch 0 o). intros rs F.
  match goal with |- match ?e rs g with _ => _ end = _ => assert (E : forall g, e rs g = draw_list label ch g) end.
  { clear g. revert IH Hf. induction F as [| c r cs rs' [o' ->] _ IHF]; intros IH Hf g; [reflexivity|].
    apply Forall_cons_iff in IH. destruct IH as [IHc IH']. cbn [fold_right] in Hf. rewrite draw_list_cons. rewrite (IHc o' f g) by lia.
    destruct (draw_green label c g) as [[v g1]|]; [|reflexivity]. rewrite IHF by (assumption || lia). reflexivity. }
  now rewrite E.
Qed.

(** The counter. *)
Fixpoint numbers (next : N) (n : nat) : list nat :=
  match n with 0 => [] | S m => N.to_nat next :: numbers ((next + 1) mod 2 ^ 64)%N m end.

Lemma grants_in sched : forall next i x, In x (grants_of next sched i) -> In x (numbers next (length sched)).
Proof.
  induction sched as [| j r IH]; intros next i x H; [contradiction|]. cbn [grants_of length numbers] in *. destruct (j =? i).
  - destruct H as [<- | H]; [now left | right; eapply IH; exact H].
  - right. eapply IH. exact H.
Qed.

Lemma numbers_in n : forall next x, (next < 2 ^ 64)%N -> In x (numbers next n) -> exists k, k < n /\ N.of_nat x = ((next + N.of_nat k) mod 2 ^ 64)%N.
Proof.
  induction n as [| n IH]; intros next x Hn H; [contradiction|]. cbn [numbers] in H. destruct H as [<- | H].
  - exists 0. split; [lia|]. rewrite N2Nat.id, N.add_0_r, N.mod_small; auto.
  - apply IH in H; [|apply N.mod_lt; discriminate]. destruct H as (k & Hk & E). exists (S k). split; [lia|].
    rewrite E. rewrite N.add_mod_idemp_l by discriminate. f_equal. lia.
Qed.

Lemma fresh_number n : forall next, (next < 2 ^ 64)%N -> (N.of_nat (S n) <= 2 ^ 64)%N -> ~ In (N.to_nat next) (numbers ((next + 1) mod 2 ^ 64)%N n).
Proof.
  intros next Hn L H. apply numbers_in in H; [|apply N.mod_lt; discriminate]. destruct H as (k & Hk & E).
  rewrite N2Nat.id, N.add_mod_idemp_l in E by discriminate.
  set (M := (2 ^ 64)%N) in *. assert (HM : (0 < M)%N) by (unfold M; lia). clearbody M.
  destruct (N.lt_ge_cases (next + 1 + N.of_nat k) M) as [C | C].
  - rewrite N.mod_small in E by assumption. lia.
  - replace (next + 1 + N.of_nat k)%N with ((next + 1 + N.of_nat k - M) + 1 * M)%N in E by lia.
    rewrite N.mod_add, N.mod_small in E by lia. lia.
Qed.

Lemma grants_nodup sched : forall next i, (next < 2 ^ 64)%N -> (N.of_nat (length sched) <= 2 ^ 64)%N -> NoDup (grants_of next sched i).
Proof.
  induction sched as [| j r IH]; intros next i Hn L; [constructor|]. cbn [grants_of length] in *.
  assert (IH' : NoDup (grants_of ((next + 1) mod 2 ^ 64)%N r i)) by (apply IH; [apply N.mod_lt; discriminate | lia]).
  destruct (j =? i); [|exact IH']. constructor; [|exact IH']. intros H. apply grants_in in H. now apply fresh_number in H.
Qed.

Lemma grants_disjoint sched : forall next i j x, (next < 2 ^ 64)%N -> (N.of_nat (length sched) <= 2 ^ 64)%N -> i <> j ->
  In x (grants_of next sched i) -> ~ In x (grants_of next sched j).
Proof.
  induction sched as [| k r IH]; intros next i j x Hn L Nij Hi Hj; [contradiction|]. cbn [grants_of length] in *.
  assert (Hn' : ((next + 1) mod 2 ^ 64 < 2 ^ 64)%N) by (apply N.mod_lt; discriminate).
  assert (F := fresh_number (length r) next Hn L).
  destruct (Nat.eqb_spec k i) as [-> | Ni], (Nat.eqb_spec i j) as [-> | Nj]; try congruence.
  - destruct Hi as [<- | Hi]; [apply grants_in in Hj; now apply F|]. eapply IH; [exact Hn' | lia | exact Nij | exact Hi | exact Hj].
  - destruct (Nat.eqb_spec k j) as [-> | Nkj].
    + destruct Hj as [<- | Hj]; [apply grants_in in Hi; now apply F|]. eapply IH; [exact Hn' | lia | exact Nij | exact Hi | exact Hj].
    + eapply IH; [exact Hn' | lia | exact Nij | exact Hi | exact Hj].
Qed.

(** Labels in a layered layout. *)
Lemma layered_labels c w : forall t level cur, map n_label (fst (layered c w t level cur)) = map v_label (nodes_of t).
Proof.
  induction t as [t IH] using vtree_ind2. intros level cur. rewrite layered_eq, nodes_of_eq. cbv zeta.
  generalize (set_current cur level (at_x w cur level + sw (node_size c t) + tc_sibling c)%Q). intros cur0.
  assert (R : map n_label (fst (layered_row c w level (v_children t) cur0)) = map v_label (flat_map nodes_of (v_children t))).
  { revert cur0. induction IH as [| k r Hk _ IHr]; intros cur0; [reflexivity|]. rewrite layered_row_cons. specialize (Hk (S level) cur0). destruct (layered c w k (S level) cur0) as [a cur1].
    specialize (IHr cur1). destruct (layered_row c w level r cur1) as [b cur2]. cbn [fst flat_map] in *. rewrite !map_app, IHr. f_equal. exact Hk. }
  destruct (layered_row c w level (v_children t) cur0) as [rest cur']. cbn [fst] in *. cbn [map n_label]. now rewrite R.
Qed.

Lemma tree_edges_eq t : tree_edges t = flat_map (fun c => Edge (v_id t) (v_id c) [] None :: tree_edges c) (v_children t).
Proof. destruct t; reflexivity. Qed.

Lemma edges_parents : forall t, map (fun e => (e_from e, e_to e)) (tree_edges t) =
  flat_map (fun c => (v_id t, v_id c) :: map (fun e => (e_from e, e_to e)) (tree_edges c)) (v_children t).
Proof.
  intros t. rewrite tree_edges_eq. induction (v_children t) as [| c r IH]; [reflexivity|]. cbn [flat_map map app]. rewrite map_app, IH. reflexivity.
Qed.

Lemma edges_in : forall t a b, In (a, b) (map (fun e => (e_from e, e_to e)) (tree_edges t)) <->
  exists s c, In s (nodes_of t) /\ In c (v_children s) /\ v_id s = a /\ v_id c = b.
Proof.
  induction t as [t IH] using vtree_ind2. intros a b. rewrite edges_parents, in_flat_map, nodes_of_eq. rewrite Forall_forall in IH. split.
  - intros (c & Hc & [E | H]).
    + injection E as <- <-. exists t, c. split; [now left|]. now repeat split.
    + apply IH in H; [|exact Hc]. destruct H as (s & d & Hs & Hd & Ea & Eb). exists s, d. split; [right; apply in_flat_map; now exists c|]. now repeat split.
  - intros (s & d & [<- | Hs] & Hd & <- & <-).
    + exists d. split; [exact Hd | now left].
    + apply in_flat_map in Hs. destruct Hs as (c & Hc & Hs). exists c. split; [exact Hc|]. right. apply IH; [exact Hc|]. exists s, d. now repeat split.
Qed.

Lemma edges_count : forall t, S (length (tree_edges t)) = length (nodes_of t).
Proof.
  induction t as [t IH] using vtree_ind2. rewrite tree_edges_eq, nodes_of_eq. cbn [length]. f_equal.
  induction IH as [| c r Hc _ IHr]; [reflexivity|]. cbn [flat_map length app]. rewrite !app_length. lia.
Qed.

Lemma forall2_len {A B} (R : A -> B -> Prop) l m : Forall2 R l m -> length l = length m.
Proof. induction 1; cbn; congruence. Qed.

Lemma order_weight : forall t l, in_order t l -> length l = weight t.
Proof.
  induction t as [t IH] using green_parts_ind. intros l O. inversion O as [t' ls F]; subst. rewrite weight_eq. cbn [length]. f_equal. clear O.
  revert ls F. induction IH as [| c r Hc _ IHr]; intros ls F; inversion F as [| a b as_ bs Ha Hb]; subst; [reflexivity|].
  cbn [concat weights fold_right]. rewrite app_length, (Hc _ Ha). f_equal. apply IHr. exact Hb.
Qed.

Lemma shows_weight label t v : shows label t v -> length (ids v) = weight t.
Proof.
  intros S. destruct (in_order_exists t) as [l O]. destruct (shows_order _ _ _ _ S O) as [F _]. apply forall2_len in F.
  unfold ids. rewrite map_length, <- F. now apply order_weight.
Qed.
