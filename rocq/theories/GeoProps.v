(** Theorems about the geometry and the layouts. *)
From Verif Require Import Base Utf8 GraphModel GraphSpec GraphProofs GraphProps GeoModel GeoSpec GeoProofs.
Require Import QArith Qminmax Lqa Permutation.
Open Scope Q_scope.

(** * Transforms *)

(** C64: applying a composed transform is applying the first and then the second. *)
Theorem compose_applies : forall s t p, point_eq (transform_point (compose s t) p) (transform_point t (transform_point s p)).
Proof. intros [] [] []. split; cbn; ring. Qed.
Print Assumptions compose_applies.

Theorem compose_assoc : forall s t u, transform_eq (compose (compose s t) u) (compose s (compose t u)).
Proof. intros [] [] []. unfold transform_eq. cbn. repeat split; ring. Qed.
Print Assumptions compose_assoc.

Theorem compose_unit : forall t, transform_eq (compose identity t) t /\ transform_eq (compose t identity) t.
Proof. intros []. unfold transform_eq. cbn. repeat split; ring. Qed.
Print Assumptions compose_unit.

(** C64: what the elementary transforms do. *)
Theorem elementary_transforms : forall p x y, point_eq (transform_point identity p) p /\
  point_eq (transform_point (translation x y) p) (Point (px p + x) (py p + y)) /\
  point_eq (transform_point (scaling x y) p) (Point (px p * x) (py p * y)).
Proof. intros [] x y. unfold point_eq. cbn. repeat split; ring. Qed.
Print Assumptions elementary_transforms.

(** C64: a difference of points is what leads from the one to the other; moving and scaling a rectangle moves and scales its points. *)
Theorem differences : forall p q, point_eq (point_add q (point_sub p q)) p /\ point_eq (point_sub (point_add p q) q) p.
Proof. intros [] []. unfold point_eq. cbn. repeat split; ring. Qed.
Print Assumptions differences.
Theorem moved_inside : forall r dx dy p, inside (rect_translate r dx dy) (Point (px p + dx) (py p + dy)) <-> inside r p.
Proof. intros [[] []] dx dy []. unfold inside, rect_translate, point_translate. cbn. lra. Qed.
Print Assumptions moved_inside.
Theorem scaled_inside : forall r k p, 0 < k -> (inside (rect_scale r k) (Point (px p * k) (py p * k)) <-> inside r p).
Proof.
  intros [[x y] [w h]] k [a b] K. unfold inside, rect_scale, point_scale, size_scale. cbn. setoid_replace (x * k + w * k) with ((x + w) * k) by ring. setoid_replace (y * k + h * k) with ((y + h) * k) by ring.
  rewrite !Qmult_le_r by exact K. tauto.
Qed.
Print Assumptions scaled_inside.
Example scaled_case : rect_scale (from_xywh 1 2 3 4) 2 = from_xywh 2 4 6 8 /\ point_sub (Point 5 7) (Point 2 3) = Point 3 4 /\ inside (from_xywh 1 2 3 4) (Point 2 5).
Proof. split; [reflexivity|]. split; [reflexivity|]. unfold inside. cbn. lra. Qed.

(** C64: rotations keep distances and compose by adding angles. *)
Theorem rotation_rigid : forall c s p q, c * c + s * s == 1 ->
  let d a b := (px a - px b) * (px a - px b) + (py a - py b) * (py a - py b) in
  d (transform_point (rotation c s) p) (transform_point (rotation c s) q) == d p q.
Proof.
  intros c s [x y] [u v] H. cbn. transitivity ((c * c + s * s) * ((x - u) * (x - u) + (y - v) * (y - v))); [ring|]. rewrite H. ring.
Qed.
Print Assumptions rotation_rigid.

Example transform_case : transform_point (compose (translation 1 2) (scaling 3 4)) (Point 5 6) = Point 18 32 /\
  transform_point (compose (scaling 3 4) (translation 1 2)) (Point 5 6) = Point 16 26.
Proof. split; reflexivity. Qed.

(** * Rectangles *)

Lemma min_spec a b : Qmin a b <= a /\ Qmin a b <= b /\ (Qmin a b == a \/ Qmin a b == b).
Proof. split; [apply Q.le_min_l|]. split; [apply Q.le_min_r|]. destruct (Q.min_spec a b) as [[_ E] | [_ E]]; [now left | now right]. Qed.
Lemma max_spec a b : a <= Qmax a b /\ b <= Qmax a b /\ (Qmax a b == a \/ Qmax a b == b).
Proof. split; [apply Q.le_max_l|]. split; [apply Q.le_max_r|]. destruct (Q.max_spec a b) as [[_ E] | [_ E]]; [now right | now left]. Qed.

Lemma within_sides r s : proper r -> (within r s <-> min_x s <= min_x r /\ min_y s <= min_y r /\ max_x r <= max_x s /\ max_y r <= max_y s).
Proof.
  intros [P1 P2]. unfold within, inside, min_x, min_y, max_x, max_y. split.
  - intros H. destruct (H (Point (px (origin r)) (py (origin r)))) as [A B]; [cbn; lra|].
    destruct (H (Point (px (origin r) + sw (extent r)) (py (origin r) + sh (extent r)))) as [C D]; [cbn; lra|]. cbn in *. lra.
  - intros H p I. lra.
Qed.

(** C103: the test for a point. *)
Theorem contains_exact : forall r p, contains_point r p = true <-> inside r p.
Proof.
  intros r p. unfold contains_point, inside, min_x, min_y, max_x, max_y. rewrite !andb_true_iff, !Qle_bool_iff. tauto.
Qed.
Print Assumptions contains_exact.

(** C103: two rectangles intersect iff they share a point. *)
Theorem intersects_exact : forall r s, proper r -> proper s -> (intersects r s = true <-> exists p, inside r p /\ inside s p).
Proof.
  intros r s [R1 R2] [S1 S2]. unfold intersects, Qlt_bool. rewrite negb_true_iff, !orb_false_iff, !negb_false_iff, !Qle_bool_iff. unfold inside, min_x, min_y, max_x, max_y in *.
  split; [|intros (p & A & B); lra].
  intros [[[A B] C] D]. exists (Point (Qmax (px (origin r)) (px (origin s))) (Qmax (py (origin r)) (py (origin s)))). cbn.
  destruct (max_spec (px (origin r)) (px (origin s))) as (X1 & X2 & X3). destruct (max_spec (py (origin r)) (py (origin s))) as (Y1 & Y2 & Y3).
  split; (split; [destruct X3; lra | destruct Y3; lra]).
Qed.
Print Assumptions intersects_exact.

(** C103: the union is the least rectangle around both. *)
Theorem union_least : forall r s, proper r -> proper s -> proper (union r s) /\ within r (union r s) /\ within s (union r s) /\
  forall t, within r t -> within s t -> within (union r s) t.
Proof.
  intros r s Pr Ps.
  destruct (min_spec (min_x r) (min_x s)) as (A1 & A2 & A3). destruct (min_spec (min_y r) (min_y s)) as (B1 & B2 & B3).
  destruct (max_spec (max_x r) (max_x s)) as (C1 & C2 & C3). destruct (max_spec (max_y r) (max_y s)) as (D1 & D2 & D3).
  assert (X0 : min_x (union r s) = Qmin (min_x r) (min_x s)) by reflexivity. assert (Y0 : min_y (union r s) = Qmin (min_y r) (min_y s)) by reflexivity.
  assert (X1 : max_x (union r s) == Qmax (max_x r) (max_x s)) by (unfold max_x at 1, union; cbn; ring). assert (Y1 : max_y (union r s) == Qmax (max_y r) (max_y s)) by (unfold max_y at 1, union; cbn; ring).
  assert (Wr : sw (extent (union r s)) == max_x (union r s) - min_x (union r s)) by (unfold max_x at 1, min_x at 1; ring). assert (Hr : sh (extent (union r s)) == max_y (union r s) - min_y (union r s)) by (unfold max_y at 1, min_y at 1; ring).
  assert (P1 : min_x r <= max_x r /\ min_y r <= max_y r) by (destruct Pr; unfold min_x, max_x, min_y, max_y; lra).
  assert (Pu : proper (union r s)) by (split; [rewrite Wr | rewrite Hr]; rewrite ?X0, ?Y0, ?X1, ?Y1; lra).
  split; [assumption|]. split; [|split].
  - apply within_sides; [assumption|]. rewrite X0, Y0, X1, Y1. lra.
  - apply within_sides; [assumption|]. rewrite X0, Y0, X1, Y1. lra.
  - intros t Hr' Hs'. apply within_sides in Hr'; [|assumption]. apply within_sides in Hs'; [|assumption]. apply within_sides; [assumption|]. rewrite X0, Y0, X1, Y1. destruct A3, B3, C3, D3; lra.
Qed.
Print Assumptions union_least.

(** C103: the rectangle of two corners is the least one containing both. *)
Theorem from_points_least : forall p q, proper (from_points p q) /\ inside (from_points p q) p /\ inside (from_points p q) q /\
  forall t, inside t p -> inside t q -> within (from_points p q) t.
Proof.
  intros p q. unfold from_points, proper, proper_size, within, inside. cbn.
  destruct (min_spec (px p) (px q)) as (A1 & A2 & A3). destruct (min_spec (py p) (py q)) as (B1 & B2 & B3).
  destruct (max_spec (px p) (px q)) as (C1 & C2 & C3). destruct (max_spec (py p) (py q)) as (D1 & D2 & D3).
  split; [lra|]. split; [lra|]. split; [lra|]. intros t Hp Hq z Hz. destruct A3, B3, C3, D3; lra.
Qed.
Print Assumptions from_points_least.

(** C103: expanding moves every side outwards and keeps the centre. *)
Theorem expand_sides : forall r m, let e := expand r m in min_x e == min_x r - m /\ min_y e == min_y r - m /\ max_x e == max_x r + m /\ max_y e == max_y r + m /\ point_eq (center e) (center r).
Proof. intros [[x y] [w h]] m. unfold point_eq, center, min_x, min_y, max_x, max_y. cbn. repeat split; field. Qed.
Print Assumptions expand_sides.

Example rect_case : intersects (from_xywh 0 0 2 2) (from_xywh 2 1 1 1) = true /\ intersects (from_xywh 0 0 2 2) (from_xywh 3 0 1 1) = false /\
  max_x (union (from_xywh 0 0 2 2) (from_xywh 3 0 1 1)) == 4.
Proof. repeat split. Qed.

(** * Bounds *)

(** C104: the bounds of a layout contain every node and nothing smaller does. *)
Theorem bounds_tight : forall ns es, ns <> [] -> Forall (fun n => proper (n_rect n)) ns -> let l := layout_with ns es in
  Forall (fun n => within (n_rect n) (l_bounds l)) (l_nodes l) /\ forall t, Forall (fun n => within (n_rect n) t) (l_nodes l) -> within (l_bounds l) t.
Proof.
  intros ns es Hn Hp. cbv zeta. unfold layout_with. rewrite add_edges_bounds, add_edges_nodes.
  assert (P : forall m, In m (l_nodes (fold_left add_node ns new_layout)) -> proper (n_rect m)).
  { intros m Hm. apply add_nodes_in in Hm. rewrite Forall_forall in Hp. destruct Hm as [[] | Hm]. now apply Hp. }
  destruct (add_nodes_bounds ns new_layout Hn) as (n & r & En & Eb). rewrite Eb, En in *. destruct (bounds_spec n r) as (A & (m1 & M1 & E1) & (m2 & M2 & E2) & (m3 & M3 & E3) & (m4 & M4 & E4)). cbv zeta in *.
  split.
  - apply Forall_forall. intros m Hm. apply within_sides; [now apply P | now apply A].
  - intros t Ht. rewrite Forall_forall in Ht.
    assert (S : forall m, In m (n :: r) -> min_x t <= min_x (n_rect m) /\ min_y t <= min_y (n_rect m) /\ max_x (n_rect m) <= max_x t /\ max_y (n_rect m) <= max_y t) by (intros m Hm; apply within_sides; [now apply P | now apply Ht]).
    assert (X1 := S m1 M1). assert (X2 := S m2 M2). assert (X3 := S m3 M3). assert (X4 := S m4 M4).
    intros p Hi. unfold inside in *. unfold min_x, min_y, max_x, max_y in *. lra.
Qed.
Print Assumptions bounds_tight.

(** C104: every node drawn lies on the canvas, at least the padding away from its border. *)
Theorem canvas_holds_all : forall canvas padding l n, In n (l_nodes l) -> proper (n_rect n) ->
  let o := canvas_offset canvas padding l in let s := canvas_size canvas padding l in
  within (rect_translate (n_rect n) (px o) (py o)) (from_xywh padding padding (sw s - 2 * padding) (sh s - 2 * padding)).
Proof.
  intros canvas padding l n Hn Hp. cbv zeta. unfold canvas_offset, canvas_size, calculate_bounds. destruct (l_nodes l) as [| m r]; [contradiction|].
  destruct (bounds_spec m r) as (A & _). cbv zeta in A. specialize (A n Hn). revert A. generalize (bounds_of m r). intros b A p. unfold inside, rect_translate, point_translate. cbn. unfold min_x, min_y, max_x, max_y in A. lra.
Qed.
Print Assumptions canvas_holds_all.

(** Without nodes the canvas has the size of the configuration, with the padding around it. *)
Theorem empty_canvas : forall canvas padding l, l_nodes l = [] -> canvas_size canvas padding l = Size (sw canvas + 2 * padding) (sh canvas + 2 * padding).
Proof. intros canvas padding l E. unfold canvas_size, calculate_bounds. rewrite E. reflexivity. Qed.
Print Assumptions empty_canvas.

Example bounds_case : l_bounds (layout_with [Node 0 [] (from_xywh 1 2 3 4); Node 1 [] (from_xywh (-5) 3 2 9)] []) = from_xywh (-5) 2 9 10.
Proof. vm_compute. reflexivity. Qed.

(** * Trees *)

(** C63: sibling subtrees are kept apart by the sibling distance, if no parent is wider than the row of its children. *)
Theorem compact_apart_partial : forall c t s A a B b C u v ru rv, NoDup (ids t) -> 0 <= tc_sibling c -> snug c t -> (forall s, In s (nodes_of t) -> 0 <= wide c s) ->
  In s (nodes_of t) -> v_children s = A ++ a :: B ++ b :: C -> In u (nodes_of a) -> In v (nodes_of b) ->
  placed_at (compact_layout c t) (v_id u) ru -> placed_at (compact_layout c t) (v_id v) rv -> max_x ru + tc_sibling c <= min_x rv.
Proof.
  intros c t s A a B b C u v ru rv Nd Hs Hg Hw Hin Ec Hu Hv Pu Pv.
  assert (Ha : In a (v_children s)) by (rewrite Ec; apply in_app_iff; right; now left). assert (Hb : In b (v_children s)) by (rewrite Ec; apply in_app_iff; right; right; apply in_app_iff; right; now left).
  assert (Nt : forall k w, In k (v_children s) -> In w (nodes_of k) -> In w (nodes_of t)) by (intros k w Hk H; eapply nodes_of_trans; [exact Hin|]; eapply nodes_of_trans; [apply child_in; exact Hk | exact H]).
  destruct (compact_local c t s 0 0 Hin) as (x & y & I).
  assert (F : Forall (fun t => forall x y, spans (compact c t x y) x /\ wide c t <= p_width (compact c t x y) /\ 0 <= wide c t) (v_children s)).
  { apply Forall_forall. intros k Hk. apply compact_spans; [assumption | intros w H; apply Hg; now apply (Nt k) | intros w H; apply Hw; now apply (Nt k)]. }
  destruct (row_spans c y Hs (v_children s) ltac:(intros E; rewrite E in Ha; contradiction) F x) as (_ & _ & _ & Bt & _).
  destruct (row_split c y A a (B ++ b :: C) x) as (xa & R1). rewrite <- Ec in R1. destruct (row_split c y B b C (xa + p_width (compact c a xa (y + tc_level c)) + tc_sibling c)) as (xb & R2). rewrite R2 in R1.
  assert (L := Bt _ _ _ _ _ R1).
  assert (G : forall k w r z, In k (v_children s) -> In w (nodes_of k) -> placed_at (compact_layout c t) (v_id w) r -> In (compact c k z (y + tc_level c)) (row c y (v_children s) x) ->
    exists n, In n (extract (compact c k z (y + tc_level c))) /\ n_rect n = r).
  { intros k w r z Hk Hw' (n & Hn & Ei & Er) Hz. rewrite (compact_nodes c t Nd) in Hn. exists n. split; [|assumption].
    assert (X : In (v_id w) (map n_id (extract (compact c k z (y + tc_level c))))) by (rewrite compact_ids; now apply in_map). apply in_map_iff in X. destruct X as (m & Em & Hm).
    assert (m = n); [|now subst]. apply (nodup_find n_id (extract (compact c t 0 0))); [now rewrite compact_ids | | assumption | congruence].
    apply I. rewrite extract_eq, compact_children. right. apply in_flat_map. eauto. }
  destruct (G a u ru xa Ha Hu Pu) as (n & Hn & <-); [rewrite R1; apply in_app_iff; right; now left|].
  destruct (G b v rv xb Hb Hv Pv) as (m & Hm & <-); [rewrite R1; apply in_app_iff; right; right; apply in_app_iff; right; now left|].
  now apply L.
Qed.
Print Assumptions compact_apart_partial.

(** C63: a parent's centre is the middle of what its descendants occupy. *)
Theorem compact_centred_partial : forall c t s r, NoDup (ids t) -> 0 <= tc_sibling c -> snug c t -> (forall s, In s (nodes_of t) -> 0 <= wide c s) ->
  In s (nodes_of t) -> v_children s <> [] -> placed_at (compact_layout c t) (v_id s) r -> exists lo hi, px (center r) == (lo + hi) / 2 /\
  (forall k u ru, In k (v_children s) -> In u (nodes_of k) -> placed_at (compact_layout c t) (v_id u) ru -> lo <= min_x ru /\ max_x ru <= hi) /\
  (exists k u ru, In k (v_children s) /\ In u (nodes_of k) /\ placed_at (compact_layout c t) (v_id u) ru /\ min_x ru == lo) /\
  (exists k u ru, In k (v_children s) /\ In u (nodes_of k) /\ placed_at (compact_layout c t) (v_id u) ru /\ max_x ru == hi).
Proof.
  intros c t s r Nd Hs Hg Hw Hin Ne Ps.
  assert (Nt : forall k w, In k (v_children s) -> In w (nodes_of k) -> In w (nodes_of t)) by (intros k w Hk H; eapply nodes_of_trans; [exact Hin|]; eapply nodes_of_trans; [apply child_in; exact Hk | exact H]).
  destruct (compact_local c t s 0 0 Hin) as (x & y & I).
  assert (F : Forall (fun t => forall x y, spans (compact c t x y) x /\ wide c t <= p_width (compact c t x y) /\ 0 <= wide c t) (v_children s)).
  { apply Forall_forall. intros k Hk. apply compact_spans; [assumption | intros w H; apply Hg; now apply (Nt k) | intros w H; apply Hw; now apply (Nt k)]. }
  destruct (row_spans c y Hs (v_children s) Ne F x) as (A & (n1 & N1 & E1) & (n2 & N2 & E2) & _ & _).
  assert (Rt : forall n, In n (flat_map extract (row c y (v_children s) x)) -> In n (extract (compact c s x y))) by (intros n H; rewrite extract_eq, compact_children; now right).
  assert (Hids : map n_id (flat_map extract (row c y (v_children s) x)) = map v_id (flat_map nodes_of (v_children s))).
  { assert (X := compact_ids c s x y). rewrite extract_eq, compact_children in X. unfold ids in X. rewrite nodes_of_eq in X. destruct (compact_node c s x y) as (nx & En & _). rewrite En in X. cbn [map n_id v_id] in X. now injection X. }
  assert (Back : forall n, In n (flat_map extract (row c y (v_children s) x)) -> exists k u, In k (v_children s) /\ In u (nodes_of k) /\ placed_at (compact_layout c t) (v_id u) (n_rect n)).
  { intros n H. assert (X : In (n_id n) (map v_id (flat_map nodes_of (v_children s)))) by (rewrite <- Hids; now apply in_map). apply in_map_iff in X. destruct X as (u & Eu & Hu). apply in_flat_map in Hu. destruct Hu as (k & Hk & Hu).
    exists k, u. split; [assumption|]. split; [assumption|]. exists n. split; [rewrite (compact_nodes c t Nd); apply I, Rt, H|]. now split. }
  exists x, (x + row_width c (row c y (v_children s) x)). split; [|split; [|split]].
  - destruct Ps as (n & Hn & Ei & <-). rewrite (compact_nodes c t Nd) in Hn. destruct (compact_node c s x y) as (nx & En & Ex).
    assert (n = p_node (compact c s x y)).
    { apply (nodup_find n_id (extract (compact c t 0 0))); [now rewrite compact_ids | assumption | apply I, compact_rooted | rewrite En; assumption]. }
    subst n. rewrite En. unfold center. cbn [n_rect origin px extent]. rewrite Ex, compact_width. destruct (v_children s); [contradiction|]. field.
  - intros k u ru Hk Hu (n & Hn & Ei & <-). rewrite (compact_nodes c t Nd) in Hn. apply A.
    assert (X : In (v_id u) (map n_id (flat_map extract (row c y (v_children s) x)))) by (rewrite Hids; apply in_map; apply in_flat_map; eauto). apply in_map_iff in X. destruct X as (m & Em & Hm).
    assert (m = n); [|now subst]. apply (nodup_find n_id (extract (compact c t 0 0))); [now rewrite compact_ids | apply I, Rt, Hm | assumption | congruence].
  - destruct (Back n1 N1) as (k & u & Hk & Hu & P). exists k, u, (n_rect n1). auto.
  - destruct (Back n2 N2) as (k & u & Hk & Hu & P). exists k, u, (n_rect n2). auto.
Qed.
Print Assumptions compact_centred_partial.

(** C63: every tree with equal sizes qualifies. *)
Theorem equal_sizes_snug : forall c t w, 0 <= w -> 0 <= tc_sibling c -> (forall s, In s (nodes_of t) -> wide c s == w) -> snug c t.
Proof.
  intros c t w Hw Hs H s Hin Ne. assert (X := Qmult_le_0_compat _ _ (nat_q_nonneg (length (v_children s) - 1)) Hs). fold (nat_q (length (v_children s) - 1)).
  assert (forall l, (forall k, In k l -> wide c k == w) -> l <> [] -> w <= total (map (wide c) l)).
  { induction l as [| k r IH]; intros Hl Hn; [contradiction|]. cbn [map total]. assert (E := Hl k (or_introl eq_refl)). destruct r as [| k' r]; [cbn; lra|]. specialize (IH (fun k0 H0 => Hl k0 (or_intror H0)) ltac:(discriminate)). lra. }
  assert (Y := H0 (v_children s) (fun k Hk => H k (nodes_of_trans _ _ _ Hin (child_in _ _ Hk))) Ne). assert (Z := H s Hin). lra.
Qed.
Print Assumptions equal_sizes_snug.

Example compact_case : map (fun n => (n_id n, Qred (min_x (n_rect n)))) (l_nodes (compact_layout default_tree_config
    (VNode 0 [] None [VNode 1 [] None [VNode 2 [] None []; VNode 3 [] None []]; VNode 4 [] None []]))) = [(0%nat, 120); (1%nat, 60); (2%nat, 0); (3%nat, 120); (4%nat, 240)].
Proof. vm_compute. reflexivity. Qed.

(** C63 fails for a parent wider than its children: it covers its sibling. *)
Theorem compact_overlap_refuted : exists t a b ra rb, NoDup (ids t) /\ v_children t = [a; b] /\
  placed_at (compact_layout default_tree_config t) (v_id a) ra /\ placed_at (compact_layout default_tree_config t) (v_id b) rb /\ overlap ra rb.
Proof.
  exists (VNode 0 [] None [VNode 1 [] (Some (Size 300 40)) [VNode 2 [] None []]; VNode 3 [] None []]). do 4 eexists.
  split; [repeat (constructor; [cbn; intuition discriminate|]); constructor|]. split; [reflexivity|].
  set (l := compact_layout _ _). vm_compute in l. subst l. split; [|split].
  - eexists. split; [right; left; reflexivity|]. split; reflexivity.
  - eexists. split; [right; right; right; left; reflexivity|]. split; reflexivity.
  - exists (Point 150 100). unfold interior. cbn. lra.
Qed.
Print Assumptions compact_overlap_refuted.

(** C105: in the layered layout no two nodes overlap, if heights fit the level distance and no node is wider than another by
    more than twice the sibling distance. *)
Theorem layered_apart_partial : forall c t, NoDup (ids t) -> 0 <= tc_sibling c -> (forall s, In s (nodes_of t) -> 0 <= wide c s /\ 0 <= tall c s <= tc_level c) ->
  (forall s u, In s (nodes_of t) -> In u (nodes_of t) -> wide c s <= wide c u + 2 * tc_sibling c) ->
  forall a b, In a (l_nodes (layered_layout c t)) -> In b (l_nodes (layered_layout c t)) -> a <> b -> ~ overlap (n_rect a) (n_rect b).
Proof.
  intros c t Nd Hs Hw Hd a b. rewrite (layered_nodes c t Nd). apply between_no_overlap. rewrite layered_eq. cbv zeta. cbn [Nat.eqb].
  set (w := level_widths c t 0 (fun _ => 0)). generalize (set_current (fun _ => None) 0 (at_x w (fun _ => None) 0 + sw (node_size c t) + tc_sibling c)). intros cur0.
  destruct (layered_row_slotted c w Hs (v_children t) 0 cur0) as (_ & A & B).
  { intros k s Hk Hin. apply Hw. eapply nodes_of_trans; [apply child_in; exact Hk | exact Hin]. }
  destruct (layered_row c w 0 (v_children t) cur0) as [rest cur']. cbn [fst snd] in *.
  assert (Sz : forall n, In n rest -> exists u, In u (nodes_of t) /\ extent (n_rect n) = node_size c u).
  { intros n H. destruct (A n H) as [(u & Hu & E) _]. exists u. split; [|assumption]. rewrite nodes_of_eq. now right. }
  apply between_cons.
  - apply Forall_forall. intros n H. destruct (A n H) as [_ (k & [Hk Y] & _)]. apply apart_y. unfold max_y, min_y. rewrite Y. cbn [n_rect origin py extent]. rewrite node_size_tall.
    destruct (Hw t (root_in t)) as [_ T]. assert (X := rows_apart (tall c t) (tc_level c) 0 k ltac:(lra) ltac:(lra) ltac:(lia)). exact X.
  - eapply between_impl; [|exact B]. intros m n Hm Hn (ka & kb & [Ka Ya] & [Kb Yb] & L). destruct (Sz m Hm) as (u & Hu & Eu). destruct (Sz n Hn) as (v & Hv & Ev).
    destruct (Hw u Hu) as [Wu Tu]. destruct (Hw v Hv) as [Wv Tv]. assert (D := Hd u v Hu Hv).
    destruct (Nat.lt_trichotomy ka kb) as [H | [-> | H]].
    + apply apart_y. unfold max_y, min_y. rewrite Ya, Yb, Eu, node_size_tall. apply rows_apart; [lra | lra | assumption].
    + specialize (L eq_refl). unfold left_x in L. rewrite Eu, Ev, !node_size_wide in L. apply apart_x. unfold max_x, min_x. rewrite Eu, node_size_wide. qlra.
    + apply apart_y'. unfold max_y, min_y. rewrite Ya, Yb, Ev, node_size_tall. apply rows_apart; [lra | lra | assumption].
Qed.
Print Assumptions layered_apart_partial.

(** C105: every node of the tree is in the layout, with its size and label. *)
Theorem layered_complete : forall c t, NoDup (ids t) -> Permutation (map n_id (l_nodes (layered_layout c t))) (ids t).
Proof. intros c t Nd. rewrite (layered_nodes c t Nd), layered_ids. apply Permutation_refl. Qed.
Print Assumptions layered_complete.

Theorem compact_complete : forall c t, NoDup (ids t) -> Permutation (map n_id (l_nodes (compact_layout c t))) (ids t).
Proof. intros c t Nd. rewrite (compact_nodes c t Nd), compact_ids. apply Permutation_refl. Qed.
Print Assumptions compact_complete.

(** C105 fails: a wide node covers a narrow sibling at its right. *)
Theorem layered_overlap_refuted : exists t a b ra rb, NoDup (ids t) /\ v_children t = [a; b] /\
  placed_at (layered_layout default_tree_config t) (v_id a) ra /\ placed_at (layered_layout default_tree_config t) (v_id b) rb /\ overlap ra rb.
Proof.
  exists (VNode 0 [] None [VNode 1 [] (Some (Size 300 40)) []; VNode 2 [] None []]). do 4 eexists.
  split; [repeat (constructor; [cbn; intuition discriminate|]); constructor|]. split; [reflexivity|].
  set (l := layered_layout _ _). vm_compute in l. subst l. split; [|split].
  - eexists. split; [right; left; reflexivity|]. split; reflexivity.
  - eexists. split; [right; right; left; reflexivity|]. split; reflexivity.
  - exists (Point 200 100). unfold interior. cbn. lra.
Qed.
Print Assumptions layered_overlap_refuted.

Example layered_case : map (fun n => (n_id n, Qred (min_x (n_rect n)), Qred (min_y (n_rect n)))) (l_nodes (layered_layout default_tree_config
    (VNode 0 [] None [VNode 1 [] None [VNode 2 [] None []]; VNode 3 [] None []]))) =
  [(0%nat, 0, 0); (1%nat, -70 # 1, 80); (2%nat, -10 # 1, 160); (3%nat, 50, 80)].
Proof. vm_compute. reflexivity. Qed.

(** * Graphs *)

(** C106: grid nodes do not overlap if they are not larger than the configured size. *)
Theorem grid_apart_partial : forall c vs es, NoDup (map vx_id vs) -> 0 <= gc_spacing c ->
  Forall (fun v => 0 <= sw (vertex_size c v) <= gc_width c /\ 0 <= sh (vertex_size c v) <= gc_height c) vs ->
  forall a b, In a (l_nodes (grid_layout c vs es)) -> In b (l_nodes (grid_layout c vs es)) -> a <> b -> ~ overlap (n_rect a) (n_rect b).
Proof.
  intros c vs es Nd Hs Hf a b. destruct vs as [| v0 r0]; [intros []|]. unfold grid_layout. rewrite route_nodes. set (vs := v0 :: r0) in *. set (cols := columns (length vs)).
  destruct (grid_spec c cols vs 0) as (F & _ & B).
  assert (Hc : (cols <> 0)%nat).
  { unfold cols, columns. destruct (Nat.eqb_spec (Nat.sqrt (length vs) * Nat.sqrt (length vs)) (length vs)) as [E | E]; [|discriminate]. intros E0. rewrite E0 in E. discriminate E. }
  assert (Ei : map n_id (grid c cols 0 vs) = map vx_id vs) by (clear -F; induction F as [| v n l m (E & _) _ IH]; [reflexivity|]; cbn [map]; congruence).
  assert (Sz : forall n, In n (grid c cols 0 vs) -> exists v, In v vs /\ extent (n_rect n) = vertex_size c v).
  { clear -F. induction F as [| v n l m (_ & _ & E) _ IH]; intros n' []; [subst; exists v; split; [now left | assumption]|]. destruct (IH n' H) as (u & Hu & Eu). exists u. split; [now right | assumption]. }
  rewrite add_nodes_fresh by (now rewrite Ei). apply between_no_overlap. eapply between_impl; [|exact B]. intros m n Hm Hn (ka & kb & Hk & Ca & Cb). rewrite Forall_forall in Hf.
  destruct (Sz m Hm) as (u & Hu & Eu). destruct (Sz n Hn) as (v & Hv & Ev). specialize (Hf u Hu) as Fu. specialize (Hf v Hv).
  apply (cells_apart _ _ _ _ _ _ _ _ Ca Cb); [apply div_mod_distinct; [assumption | lia] | rewrite Eu; lra | rewrite Eu; lra | rewrite Ev; lra | rewrite Ev; lra].
Qed.
Print Assumptions grid_apart_partial.

(** C106: the same for layers. *)
Theorem layers_apart_partial : forall c vs es l, NoDup (map vx_id vs) -> 0 <= gc_spacing c ->
  Forall (fun v => 0 <= sw (vertex_size c v) <= gc_width c /\ 0 <= sh (vertex_size c v) <= gc_layer c) vs -> hierarchical_graph c vs es = Some l ->
  forall a b, In a (l_nodes l) -> In b (l_nodes l) -> a <> b -> ~ overlap (n_rect a) (n_rect b).
Proof.
  intros c vs es l Nd Hs Hf E a b. destruct vs as [| v0 r0]; [injection E as <-; intros []|]. unfold hierarchical_graph in E. set (vs := v0 :: r0) in *.
  destruct (topological_layers (Graph (map vx_id vs) es true)) as [layers|] eqn:El; [|discriminate].
  assert (Cl : forall e, In e es -> In (snd e) (map vx_id vs)).
  { intros e He. destruct (in_dec Nat.eq_dec (snd e) (map vx_id vs)) as [Hi | Hi]; [assumption|]. exfalso. assert (topological_layers (Graph (map vx_id vs) es true) = None); [|congruence]. apply dangling_edge_exact; [exact Nd|]. now exists e. }
  destruct (layers_partition (Graph (map vx_id vs) es true) Nd) as (layers' & E' & P & _); [now apply Forall_forall|]. rewrite El in E'. injection E' as <-. cbn [gr_nodes] in P.
  destruct (layer_rows_spec c vs layers 0) as (ns & En & Ei & A & B); [intros id Hi; eapply Permutation_in; eassumption|]. rewrite En in E. injection E as <-. rewrite route_nodes.
  rewrite add_nodes_fresh by (rewrite Ei; eapply Permutation_NoDup; [apply Permutation_sym; exact P | exact Nd]). apply between_no_overlap. eapply between_impl; [|exact B]. intros m n Hm Hn R. rewrite Forall_forall in Hf.
  destruct (A m Hm) as [(u & Hu & _ & _ & Eu) _]. destruct (A n Hn) as [(v & Hv & _ & _ & Ev) _]. specialize (Hf u Hu) as Fu. specialize (Hf v Hv).
  apply (rows_no_overlap c _ _ R); unfold pitch; rewrite ?Eu, ?Ev; lra.
Qed.
Print Assumptions layers_apart_partial.

(** C106: both layouts place every node. *)
Theorem grid_complete : forall c vs es, NoDup (map vx_id vs) -> map n_id (l_nodes (grid_layout c vs es)) = map vx_id vs.
Proof.
  intros c vs es Nd. destruct vs as [| v0 r0]; [reflexivity|]. unfold grid_layout. rewrite route_nodes. set (vs := v0 :: r0) in *. destruct (grid_spec c (columns (length vs)) vs 0) as (F & _).
  assert (Ei : map n_id (grid c (columns (length vs)) 0 vs) = map vx_id vs) by (clear -F; induction F as [| v n l m (E & _) _ IH]; [reflexivity|]; cbn [map]; congruence).
  rewrite add_nodes_fresh; rewrite Ei; [reflexivity | assumption].
Qed.
Print Assumptions grid_complete.

(** C106 fails for nodes with their own, larger size. *)
Theorem grid_overlap_refuted : exists vs a b ra rb, NoDup (map vx_id vs) /\ map vx_id vs = [a; b] /\
  placed_at (grid_layout default_graph_config vs []) a ra /\ placed_at (grid_layout default_graph_config vs []) b rb /\ overlap ra rb.
Proof.
  exists [Vertex 0 [] (Some (Size 200 40)); Vertex 1 [] None]. do 4 eexists.
  split; [repeat (constructor; [cbn; intuition discriminate|]); constructor|]. split; [reflexivity|].
  set (l := grid_layout _ _ _). vm_compute in l. subst l. split; [|split].
  - eexists. split; [left; reflexivity|]. split; reflexivity.
  - eexists. split; [right; left; reflexivity|]. split; reflexivity.
  - exists (Point 150 20). unfold interior. cbn. lra.
Qed.
Print Assumptions grid_overlap_refuted.

Example grid_case : map (fun n => (n_id n, min_x (n_rect n), min_y (n_rect n))) (l_nodes (grid_layout default_graph_config [Vertex 7 [] None; Vertex 8 [] None; Vertex 9 [] None] [])) = [(7%nat, 0, 0); (8%nat, 100, 0); (9%nat, 0, 60)].
Proof. vm_compute. reflexivity. Qed.

(** * The hierarchical engine *)

(** C107: nodes never overlap, whatever the graph. *)
Theorem engine_apart : forall fuel c items es l, 0 <= lc_vertical c -> Forall (fun n => 0 <= sh (i_size n)) items -> hierarchical_engine fuel c items es = Some l ->
  forall a b, In a (l_nodes l) -> In b (l_nodes l) -> a <> b -> ~ overlap (n_rect a) (n_rect b).
Proof.
  intros fuel c items es l Hv Hp E a b. destruct items as [| i0 r0]; [injection E as <-; intros []|]. unfold hierarchical_engine in E. set (items := i0 :: r0) in *.
  destruct (build_hierarchy fuel items es) as [hs|] eqn:Eh; [|discriminate]. injection E as <-. rewrite route_nodes. intros Ha Hb.
  apply add_nodes_in in Ha. apply add_nodes_in in Hb. destruct Ha as [[] | Ha]. destruct Hb as [[] | Hb]. revert a b Ha Hb.
  destruct (top_down_all_stacked c Hv hs (lc_margin c)) as (_ & S). destruct S as (_ & _ & B); [|apply between_no_overlap; eapply between_impl; [|exact B]; intros a b _ _ H; now apply apart_y].
  apply Forall_forall. intros [i s] Hi. cbn [snd]. apply in_flat_map in Hi. destruct Hi as (h & Hh & Hi). unfold build_hierarchy in Eh. apply traverse_inv in Eh.
  assert (X : exists id, build_node fuel items es id = Some h) by (clear -Eh Hh; induction Eh as [| x y l m E _ IH]; [contradiction|]; destruct Hh as [-> | Hh]; [now exists (i_id x) | now apply IH]).
  destruct X as (id & X). destruct (build_node_items fuel items es id h X i s Hi) as (n & Hn & _ & <-). rewrite Forall_forall in Hp. now apply Hp.
Qed.
Print Assumptions engine_apart.

(** C107: in a graph without closed walks exactly the given nodes are placed. *)
Theorem engine_complete_partial : forall c items es, 0 <= lc_vertical c -> let g := Graph (map i_id items) es true in closed g -> (forall a b, step g a b -> ~ walk g b a) ->
  exists depth, forall fuel, (depth <= fuel)%nat -> exists l, hierarchical_engine fuel c items es = Some l /\ NoDup (map n_id (l_nodes l)) /\
    forall x, In x (map n_id (l_nodes l)) <-> In x (map i_id items).
Proof.
  intros c items es Hv g Hc Ha. destruct items as [| i0 r0]; [exists 0%nat; intros fuel _; exists new_layout; split; [reflexivity|]; split; [constructor | reflexivity]|]. set (items := i0 :: r0) in *.
  destruct (find_cycles_runs g) as (s & E & Ec). rewrite (acyclic_silent g Ha) in Ec. injection Ec as Ec.
  assert (Es : se_cycles s = []) by (rewrite <- (rev_involutive (se_cycles s)), <- Ec; reflexivity).
  destruct (no_report_order g s E Es) as (F & Ho & Hn). unfold closed in Hc. rewrite Forall_forall in Hc.
  assert (Hr : forall u v, In (u, v) es -> (rank F v < rank F u)%nat) by (intros u v H; apply (ordered_rank g F); [assumption | apply Hn; apply (Hc (u, v) H) | now left]).
  set (bound := list_max (map (rank F) (map i_id items))).
  assert (Hb : forall u, In u (map i_id items) -> (rank F u <= bound)%nat).
  { intros u Hu. assert (X := proj1 (list_max_le (map (rank F) (map i_id items)) bound) (le_n _)). rewrite Forall_forall in X. apply X. now apply in_map. }
  exists (S bound). intros fuel Hf. unfold hierarchical_engine. change (match items with [] => _ | _ => ?x end) with x.
  destruct (traverse_spec (fun n => build_node fuel items es (i_id n)) (filter (fun n => negb (mem (i_id n) (map snd es))) items)) as (hs & Eh & F2).
  { intros n Hn'. apply filter_In in Hn'. destruct Hn' as [Hn' _]. apply (build_node_some items es (rank F) Hr (fun u v H => proj2 (Hc (u, v) H))); [|now apply in_map]. assert (X := Hb (i_id n) (in_map _ _ _ Hn')). lia. }
  unfold build_hierarchy. cbn [items] in Eh. fold items in Eh. change (traverse (fun n => build_node fuel items es (i_id n)) (filter (fun n => negb (mem (i_id n) (map snd es))) items) = Some hs) in Eh. rewrite Eh. eexists. split; [reflexivity|]. rewrite route_nodes. split; [apply add_nodes_nodup; constructor|].
  intros x. rewrite add_nodes_ids. cbn [new_layout l_nodes map]. destruct (top_down_all_stacked c Hv hs (lc_margin c)) as (Ei & _).
  assert (Ei' : map n_id (fst (top_down_all c hs (lc_margin c))) = map fst (flat_map h_items hs)) by (rewrite <- Ei, map_map; reflexivity). rewrite Ei'.
  assert (Bk : forall h, In h hs -> exists n, In n items /\ build_node fuel items es (i_id n) = Some h).
  { intros h Hh. assert (G : forall l, Forall2 (fun n h => build_node fuel items es (i_id n) = Some h) l hs -> incl l items -> exists n, In n items /\ build_node fuel items es (i_id n) = Some h).
    { clear -Hh. intros l F2. induction F2 as [| n k l m E _ IH]; intros I; [contradiction|]. destruct Hh as [-> | Hh]; [exists n; split; [apply I; now left | assumption]|]. apply IH; [assumption|]. intros z Hz. apply I. now right. }
    apply (G _ F2). intros z Hz. apply filter_In in Hz. apply Hz. }
  split.
  - intros [[] | H]. apply in_map_iff in H. destruct H as ([i z] & <- & H). cbn [fst]. apply in_flat_map in H. destruct H as (h & Hh & H). destruct (Bk h Hh) as (n & Hn' & En). destruct (build_node_items _ _ _ _ _ En i z H) as (m & Hm & <- & _). now apply in_map.
  - intros H. right. destruct (root_above (map i_id items) es (rank F) bound Hr (fun u v H0 => proj1 (Hc (u, v) H0)) Hb _ x H (le_n _)) as (r & Hr' & Nr & W).
    apply in_map_iff in Hr'. destruct Hr' as (n & <- & Hn').
    assert (Hf' : In n (filter (fun n => negb (mem (i_id n) (map snd es))) items)) by (apply filter_In; split; [assumption|]; rewrite (proj2 (mem_not_in _ _) Nr); reflexivity).
    assert (G : exists h, In h hs /\ build_node fuel items es (i_id n) = Some h).
    { clear -F2 Hf'. revert F2 Hf'. generalize (filter (fun n => negb (mem (i_id n) (map snd es))) items). intros l F2. induction F2 as [| a b l m E _ IH]; intros Hi; [contradiction|]. destruct Hi as [-> | Hi]; [exists b; split; [now left | assumption]|]. destruct (IH Hi) as (h & Hh & Eh). exists h. split; [now right | assumption]. }
    destruct G as (h & Hh & En). assert (R := build_node_reach items es _ _ W fuel h En). apply in_map_iff in R. destruct R as (p & Ep & Hp). apply in_map_iff. exists p. split; [assumption|]. apply in_flat_map. eauto.
Qed.
Print Assumptions engine_complete_partial.

Example engine_case : option_map (fun l => map (fun n => (n_id n, min_x (n_rect n), min_y (n_rect n))) (l_nodes l))
    (hierarchical_engine 5 default_layout_config [Item 0 (Size 100 50); Item 1 (Size 100 50); Item 2 (Size 100 50)] [(0, 1); (0, 2)]%nat) =
  Some [(0%nat, 20, 20); (1%nat, 60, 100); (2%nat, 200, 180)].
Proof. vm_compute. reflexivity. Qed.

(** C107 fails: nodes on a cycle that nothing leads to are left out. *)
Theorem engine_loses_refuted : exists items es, length items = 2%nat /\ (forall e, In e es -> In (fst e) (map i_id items) /\ In (snd e) (map i_id items)) /\
  forall fuel c, exists l, hierarchical_engine fuel c items es = Some l /\ l_nodes l = [].
Proof.
  exists [Item 0 (Size 100 50); Item 1 (Size 100 50)], [(0, 1); (1, 0)]%nat. split; [reflexivity|]. split; [intros e [<- | [<- | []]]; cbn; tauto|].
  intros fuel c. eexists. split; reflexivity.
Qed.
Print Assumptions engine_loses_refuted.

(** C107 fails: with a cycle behind a root the recursion never ends. *)
Theorem engine_diverges_refuted : exists items es, (forall e, In e es -> In (fst e) (map i_id items) /\ In (snd e) (map i_id items)) /\
  forall fuel c, hierarchical_engine fuel c items es = None.
Proof.
  exists [Item 0 (Size 100 50); Item 1 (Size 100 50)], [(0, 1); (1, 1)]%nat. split; [intros e [<- | [<- | []]]; cbn; tauto|].
  intros fuel c. unfold hierarchical_engine, build_hierarchy. cbn [filter map snd mem existsb i_id Nat.eqb orb negb traverse fst].
  assert (N : forall f, build_node f [Item 0 (Size 100 50); Item 1 (Size 100 50)] [(0, 1); (1, 1)]%nat 1 = None).
  { induction f as [| f IH]; [reflexivity|]. cbn [build_node find i_id Nat.eqb filter fst map snd traverse]. now rewrite IH. }
  destruct fuel as [| f]; [reflexivity|]. cbn [build_node find i_id Nat.eqb filter fst map snd traverse]. now rewrite N.
Qed.
Print Assumptions engine_diverges_refuted.

(** C107 fails: an edge to an unknown node panics. *)
Theorem engine_dangling_refuted : exists items es, length items = 1%nat /\ forall fuel c, hierarchical_engine fuel c items es = None.
Proof.
  exists [Item 0 (Size 100 50)], [(0, 1)]%nat. split; [reflexivity|]. intros fuel c. destruct fuel as [| [| f]]; reflexivity.
Qed.
Print Assumptions engine_dangling_refuted.
