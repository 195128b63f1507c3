(** Lemmas about the geometry and the layouts. *)
From Verif Require Import Base Utf8 GraphModel GraphSpec GraphProofs GeoModel GeoSpec.
Require Import QArith Qminmax Lqa Permutation.
Open Scope Q_scope.

Ltac qlra := unfold Qdiv in *; change (/ 2) with (1 # 2) in *; lra.

Section tree_induction.
  Variable P : vtree -> Prop.
  Hypothesis H : forall i l s cs, Forall P cs -> P (VNode i l s cs).
  Fixpoint vtree_ind' (t : vtree) : P t :=
    match t with
    | VNode i l s cs => H i l s cs ((fix each (l : list vtree) : Forall P l := match l with [] => Forall_nil P | c :: r => Forall_cons c (vtree_ind' c) (each r) end) cs)
    end.
End tree_induction.

Lemma vtree_ind2 (P : vtree -> Prop) : (forall t, Forall P (v_children t) -> P t) -> forall t, P t.
Proof. intros H. induction t as [i l s cs IH] using vtree_ind'. apply H. exact IH. Qed.

Lemma nodes_of_eq t : nodes_of t = t :: flat_map nodes_of (v_children t).
Proof. destruct t as [i l s cs]. reflexivity. Qed.

Lemma root_in t : In t (nodes_of t).
Proof. rewrite nodes_of_eq. now left. Qed.

Lemma nodes_of_trans : forall t s u, In s (nodes_of t) -> In u (nodes_of s) -> In u (nodes_of t).
Proof.
  induction t as [i l z cs IH] using vtree_ind'. intros s u Hs Hu. rewrite nodes_of_eq in Hs. destruct Hs as [<- | Hs]; [assumption|].
  cbn [v_children] in Hs. rewrite nodes_of_eq. right. cbn [v_children]. apply in_flat_map in Hs. destruct Hs as (c & Hc & Hs). apply in_flat_map. exists c. split; [assumption|].
  rewrite Forall_forall in IH. exact (IH c Hc s u Hs Hu).
Qed.

Lemma child_in t c : In c (v_children t) -> In c (nodes_of t).
Proof. intros H. rewrite nodes_of_eq. right. apply in_flat_map. exists c. split; [assumption | apply root_in]. Qed.

(** * Node tables *)

Lemma put_fresh n l : ~ In (n_id n) (map n_id l) -> put_node n l = l ++ [n].
Proof.
  induction l as [| m r IH]; intros H; [reflexivity|]. cbn [put_node app]. cbn in H.
  destruct (Nat.eqb_spec (n_id m) (n_id n)) as [E | E]; [exfalso; apply H; now left|]. rewrite IH; [reflexivity | tauto].
Qed.

Lemma add_nodes_nodes ns : forall l, NoDup (map n_id (l_nodes l ++ ns)) -> l_nodes (fold_left add_node ns l) = l_nodes l ++ ns.
Proof.
  induction ns as [| n r IH]; intros l H; cbn [fold_left]; [now rewrite app_nil_r|].
  assert (E : l_nodes (add_node l n) = l_nodes l ++ [n]).
  { cbn [add_node update_bounds l_nodes]. apply put_fresh. rewrite map_app in H. cbn [map] in H. apply NoDup_remove_2 in H. intros X. apply H. apply in_app_iff. now left. }
  rewrite IH; rewrite E, <- app_assoc; [reflexivity | exact H].
Qed.

Lemma add_nodes_fresh ns : NoDup (map n_id ns) -> l_nodes (fold_left add_node ns new_layout) = ns.
Proof. intros H. rewrite add_nodes_nodes; [reflexivity | exact H]. Qed.

Lemma add_edges_nodes es : forall l, l_nodes (fold_left add_edge es l) = l_nodes l.
Proof. induction es as [| e r IH]; intros l; cbn [fold_left]; [reflexivity|]. now rewrite IH. Qed.
Lemma add_edges_bounds es : forall l, l_bounds (fold_left add_edge es l) = l_bounds l.
Proof. induction es as [| e r IH]; intros l; cbn [fold_left]; [reflexivity|]. now rewrite IH. Qed.
Lemma add_edges_edges es : forall l, l_edges (fold_left add_edge es l) = l_edges l ++ es.
Proof. induction es as [| e r IH]; intros l; cbn [fold_left]; [now rewrite app_nil_r|]. rewrite IH. cbn [add_edge l_edges]. now rewrite <- app_assoc. Qed.
Lemma add_nodes_edges ns : forall l, l_edges (fold_left add_node ns l) = l_edges l.
Proof. induction ns as [| e r IH]; intros l; cbn [fold_left]; [reflexivity|]. now rewrite IH. Qed.
Lemma route_nodes es : forall l, l_nodes (fold_left route es l) = l_nodes l.
Proof.
  induction es as [| e r IH]; intros l; cbn [fold_left]; [reflexivity|]. rewrite IH. unfold route. destruct (get_node _ (fst e)); [|reflexivity]. destruct (get_node _ (snd e)); reflexivity.
Qed.
Lemma route_bounds es : forall l, l_bounds (fold_left route es l) = l_bounds l.
Proof.
  induction es as [| e r IH]; intros l; cbn [fold_left]; [reflexivity|]. rewrite IH. unfold route. destruct (get_node _ (fst e)); [|reflexivity]. destruct (get_node _ (snd e)); reflexivity.
Qed.

Lemma put_in n l m : In m (put_node n l) -> m = n \/ In m l.
Proof.
  induction l as [| k r IH]; cbn [put_node]; [intros [<- | []]; now left|]. destruct (n_id k =? n_id n)%nat; intros [<- | H]; [now left | right; now right | right; now left |].
  destruct (IH H); [now left | right; now right].
Qed.
Lemma add_nodes_in ns : forall l m, In m (l_nodes (fold_left add_node ns l)) -> In m (l_nodes l) \/ In m ns.
Proof.
  induction ns as [| n r IH]; intros l m H; cbn [fold_left] in H; [now left|]. apply IH in H. destruct H as [H | H]; [|right; now right].
  cbn [add_node update_bounds l_nodes] in H. apply put_in in H. destruct H as [-> | H]; [right; now left | now left].
Qed.
Lemma put_nodup n l : NoDup (map n_id l) -> NoDup (map n_id (put_node n l)).
Proof.
  induction l as [| k r IH]; intros H; cbn [put_node]; [constructor; [intros [] | constructor]|].
  cbn [map] in H. inversion H as [| ? ? H1 H2]; subst. destruct (Nat.eqb_spec (n_id k) (n_id n)) as [E | E]; cbn [map].
  - rewrite <- E. now constructor.
  - constructor; [|now apply IH]. intros X. apply in_map_iff in X. destruct X as (m & Em & Hm). apply put_in in Hm. destruct Hm as [-> | Hm]; [congruence|]. apply H1. rewrite <- Em. now apply in_map.
Qed.
Lemma add_nodes_nodup ns : forall l, NoDup (map n_id (l_nodes l)) -> NoDup (map n_id (l_nodes (fold_left add_node ns l))).
Proof. induction ns as [| n r IH]; intros l H; cbn [fold_left]; [assumption|]. apply IH. now apply put_nodup. Qed.
Lemma put_ids n l x : In x (map n_id (put_node n l)) <-> x = n_id n \/ In x (map n_id l).
Proof.
  induction l as [| k r IH]; cbn [put_node map]; [cbn; intuition congruence|]. destruct (Nat.eqb_spec (n_id k) (n_id n)) as [E | E]; cbn [map In]; [rewrite E; intuition congruence | rewrite IH; intuition congruence].
Qed.
Lemma add_nodes_ids ns : forall l x, In x (map n_id (l_nodes (fold_left add_node ns l))) <-> In x (map n_id (l_nodes l)) \/ In x (map n_id ns).
Proof.
  induction ns as [| n r IH]; intros l x; cbn [fold_left map In]; [tauto|]. rewrite IH. cbn [add_node update_bounds l_nodes]. rewrite put_ids. intuition congruence.
Qed.

(** * Bounds *)

Lemma fold_min_le (f : node -> Q) ns : forall m, fold_left (fun m n => Qmin m (f n)) ns m <= m /\ Forall (fun n => fold_left (fun m n => Qmin m (f n)) ns m <= f n) ns /\
  (fold_left (fun m n => Qmin m (f n)) ns m == m \/ Exists (fun n => fold_left (fun m n => Qmin m (f n)) ns m == f n) ns).
Proof.
  induction ns as [| n r IH]; intros m; cbn [fold_left]; [split; [lra | split; [constructor | left; lra]]|].
  destruct (IH (Qmin m (f n))) as (H1 & H2 & H3). assert (A := Q.le_min_l m (f n)). assert (B := Q.le_min_r m (f n)).
  split; [lra|]. split; [constructor; [lra | assumption]|]. destruct H3 as [H3 | H3]; [|right; now apply Exists_cons_tl].
  destruct (Q.min_spec m (f n)) as [[_ E] | [_ E]]; [left; lra | right; apply Exists_cons_hd; lra].
Qed.
Lemma fold_max_le (f : node -> Q) ns : forall m, m <= fold_left (fun m n => Qmax m (f n)) ns m /\ Forall (fun n => f n <= fold_left (fun m n => Qmax m (f n)) ns m) ns /\
  (fold_left (fun m n => Qmax m (f n)) ns m == m \/ Exists (fun n => fold_left (fun m n => Qmax m (f n)) ns m == f n) ns).
Proof.
  induction ns as [| n r IH]; intros m; cbn [fold_left]; [split; [lra | split; [constructor | left; lra]]|].
  destruct (IH (Qmax m (f n))) as (H1 & H2 & H3). assert (A := Q.le_max_l m (f n)). assert (B := Q.le_max_r m (f n)).
  split; [lra|]. split; [constructor; [lra | assumption]|]. destruct H3 as [H3 | H3]; [|right; now apply Exists_cons_tl].
  destruct (Q.max_spec m (f n)) as [[_ E] | [_ E]]; [right; apply Exists_cons_hd; lra | left; lra].
Qed.

Lemma bounds_spec n r : let b := bounds_of n r in
  (forall m, In m (n :: r) -> min_x b <= min_x (n_rect m) /\ min_y b <= min_y (n_rect m) /\ max_x (n_rect m) <= max_x b /\ max_y (n_rect m) <= max_y b) /\
  (exists m, In m (n :: r) /\ min_x b == min_x (n_rect m)) /\ (exists m, In m (n :: r) /\ min_y b == min_y (n_rect m)) /\
  (exists m, In m (n :: r) /\ max_x b == max_x (n_rect m)) /\ (exists m, In m (n :: r) /\ max_y b == max_y (n_rect m)).
Proof.
  destruct (fold_min_le (fun m => min_x (n_rect m)) r (min_x (n_rect n))) as (A1 & A2 & A3).
  destruct (fold_min_le (fun m => min_y (n_rect m)) r (min_y (n_rect n))) as (B1 & B2 & B3).
  destruct (fold_max_le (fun m => max_x (n_rect m)) r (max_x (n_rect n))) as (C1 & C2 & C3).
  destruct (fold_max_le (fun m => max_y (n_rect m)) r (max_y (n_rect n))) as (D1 & D2 & D3).
  cbv zeta. unfold bounds_of.
  revert A1 A2 A3 B1 B2 B3 C1 C2 C3 D1 D2 D3.
  generalize (fold_left (fun m n0 => Qmin m (min_x (n_rect n0))) r (min_x (n_rect n))) (fold_left (fun m n0 => Qmin m (min_y (n_rect n0))) r (min_y (n_rect n)))
    (fold_left (fun m n0 => Qmax m (max_x (n_rect n0))) r (max_x (n_rect n))) (fold_left (fun m n0 => Qmax m (max_y (n_rect n0))) r (max_y (n_rect n))).
  intros x0 y0 x1 y1. intros. rewrite Forall_forall in *. unfold min_x, min_y, max_x, max_y in *. cbn [from_xywh origin extent px py sw sh] in *.
  split; [|split; [|split; [|split]]].
  - intros m [<- | H]; [split; [|split; [|split]]; lra|]. specialize (A2 m H). specialize (B2 m H). specialize (C2 m H). specialize (D2 m H). cbn beta in *. split; [|split; [|split]]; lra.
  - destruct A3 as [E | E]; [exists n; split; [now left | assumption]|]. apply Exists_exists in E. destruct E as (m & Hm & E). exists m. split; [now right | assumption].
  - destruct B3 as [E | E]; [exists n; split; [now left | assumption]|]. apply Exists_exists in E. destruct E as (m & Hm & E). exists m. split; [now right | assumption].
  - destruct C3 as [E | E]; [exists n; split; [now left | lra]|]. apply Exists_exists in E. destruct E as (m & Hm & E). exists m. split; [now right | lra].
  - destruct D3 as [E | E]; [exists n; split; [now left | lra]|]. apply Exists_exists in E. destruct E as (m & Hm & E). exists m. split; [now right | lra].
Qed.

Lemma add_nodes_bounds ns : forall l, ns <> [] -> exists n r, l_nodes (fold_left add_node ns l) = n :: r /\ l_bounds (fold_left add_node ns l) = bounds_of n r.
Proof.
  intros l H. destruct (exists_last H) as (pre & m & ->). rewrite fold_left_app. cbn [fold_left]. generalize (fold_left add_node pre l). intros l'.
  cbn [add_node update_bounds l_nodes l_bounds]. assert (X : put_node m (l_nodes l') <> []) by (destruct (l_nodes l') as [| k q]; cbn [put_node]; [discriminate|]; destruct (n_id k =? n_id m)%nat; discriminate).
  destruct (put_node m (l_nodes l')) as [| n r]; [contradiction|]. eauto.
Qed.

(** * Overlap *)

Lemma apart_x r s : max_x r <= min_x s -> ~ overlap r s.
Proof. unfold max_x, min_x. intros H (p & [A _] & [B _]). lra. Qed.
Lemma apart_x' r s : max_x s <= min_x r -> ~ overlap r s.
Proof. unfold max_x, min_x. intros H (p & [A _] & [B _]). lra. Qed.
Lemma apart_y r s : max_y r <= min_y s -> ~ overlap r s.
Proof. unfold max_y, min_y. intros H (p & [_ A] & [_ B]). lra. Qed.
Lemma apart_y' r s : max_y s <= min_y r -> ~ overlap r s.
Proof. unfold max_y, min_y. intros H (p & [_ A] & [_ B]). lra. Qed.
Lemma overlap_sym r s : overlap r s -> overlap s r.
Proof. intros (p & A & B). now exists p. Qed.

Definition nat_q (n : nat) : Q := inject_Z (Z.of_nat n).
Lemma nat_q_S n : nat_q (S n) == nat_q n + 1.
Proof. unfold nat_q. rewrite Nat2Z.inj_succ, <- Z.add_1_r, inject_Z_plus. reflexivity. Qed.
Lemma nat_q_nonneg n : 0 <= nat_q n.
Proof. unfold nat_q. change 0 with (inject_Z 0). rewrite <- Zle_Qle. lia. Qed.
Lemma nat_q_le a b : (a <= b)%nat -> nat_q a <= nat_q b.
Proof. unfold nat_q. intros H. rewrite <- Zle_Qle. lia. Qed.

Definition between {A} (R : A -> A -> Prop) (l : list A) : Prop := forall l1 a l2 b l3, l = l1 ++ a :: l2 ++ b :: l3 -> R a b.

Lemma distinct_positions {A} (l : list A) a b : In a l -> In b l -> a <> b -> (exists l1 l2 l3, l = l1 ++ a :: l2 ++ b :: l3) \/ (exists l1 l2 l3, l = l1 ++ b :: l2 ++ a :: l3).
Proof.
  intros Ha Hb N. apply in_split in Ha. destruct Ha as (p & q & ->). apply in_app_iff in Hb. destruct Hb as [Hb | [E | Hb]]; [right | contradiction | left].
  - apply in_split in Hb. destruct Hb as (u & v & ->). exists u, v, q. now rewrite <- app_assoc.
  - apply in_split in Hb. destruct Hb as (u & v & ->). now exists p, u, v.
Qed.

Lemma between_no_overlap l : between (fun a b => ~ overlap (n_rect a) (n_rect b)) l -> forall a b, In a l -> In b l -> a <> b -> ~ overlap (n_rect a) (n_rect b).
Proof.
  intros H a b Ha Hb N. destruct (distinct_positions l a b Ha Hb N) as [(x & y & z & E) | (x & y & z & E)]; [exact (H _ _ _ _ _ E)|].
  intros O. apply (H _ _ _ _ _ E). now apply overlap_sym.
Qed.

Lemma between_nil {A} (R : A -> A -> Prop) : between R [].
Proof. intros [| x l1] a l2 b l3 E; discriminate. Qed.
Lemma between_cons {A} (R : A -> A -> Prop) x l : Forall (R x) l -> between R l -> between R (x :: l).
Proof.
  intros F H l1 a l2 b l3 E. destruct l1 as [| y l1]; cbn [app] in E; injection E as -> E.
  - rewrite Forall_forall in F. apply F. rewrite E. apply in_app_iff. right. now left.
  - exact (H _ _ _ _ _ E).
Qed.
Lemma between_cons_inv {A} (R : A -> A -> Prop) x l : between R (x :: l) -> Forall (R x) l /\ between R l.
Proof.
  intros H. split.
  - apply Forall_forall. intros b Hb. apply in_split in Hb. destruct Hb as (u & v & ->). exact (H [] x u b v eq_refl).
  - intros l1 a l2 b l3 ->. exact (H (x :: l1) a l2 b l3 eq_refl).
Qed.
Lemma between_app {A} (R : A -> A -> Prop) l r : between R l -> between R r -> (forall a b, In a l -> In b r -> R a b) -> between R (l ++ r).
Proof.
  induction l as [| x l IH]; intros Hl Hr H; [assumption|]. cbn [app]. apply between_cons_inv in Hl. destruct Hl as [F Hl]. apply between_cons.
  - apply Forall_app. split; [assumption|]. apply Forall_forall. intros b Hb. apply H; [now left | assumption].
  - apply IH; [assumption | assumption|]. intros a b Ha Hb. apply H; [now right | assumption].
Qed.
Lemma between_impl {A} (R S : A -> A -> Prop) l : (forall a b, In a l -> In b l -> R a b -> S a b) -> between R l -> between S l.
Proof. intros I H l1 a l2 b l3 E. apply I; [rewrite E; apply in_app_iff; right; now left | rewrite E; apply in_app_iff; right; right; apply in_app_iff; right; now left | exact (H _ _ _ _ _ E)]. Qed.

(** * Compact trees *)

Lemma extract_eq p : extract p = p_node p :: flat_map extract (p_children p).
Proof. destruct p. reflexivity. Qed.

Lemma compact_eq c t x y : compact c t x y =
  let cs := compact_loop c (compact c) y (v_children t) x in
  let width := match cs with [] => sw (node_size c t) | _ => Qsum (map p_width cs) + nat_q (length cs - 1) * tc_sibling c end in
  let node_x := match cs with [] => x | _ => x + width / 2 - sw (node_size c t) / 2 end in
  Placed (Node (v_id t) (v_label t) (Rect (Point node_x y) (node_size c t))) width cs.
Proof. destruct t. reflexivity. Qed.

Definition row (c : tree_config) (y : Q) (l : list vtree) (x : Q) : list placed := compact_loop c (compact c) y l x.
Lemma row_cons c y t r x : row c y (t :: r) x = compact c t x (y + tc_level c) :: row c y r (x + p_width (compact c t x (y + tc_level c)) + tc_sibling c).
Proof. reflexivity. Qed.
Lemma row_length c y l : forall x, length (row c y l x) = length l.
Proof. induction l as [| t r IH]; intros x; [reflexivity|]. rewrite row_cons. cbn [length]. now rewrite IH. Qed.

Definition row_width (c : tree_config) (ps : list placed) : Q := Qsum (map p_width ps) + nat_q (length ps - 1) * tc_sibling c.

Lemma compact_width c t x y : p_width (compact c t x y) = match v_children t with [] => sw (node_size c t) | _ => row_width c (row c y (v_children t) x) end.
Proof. rewrite compact_eq. cbv zeta. cbn [p_width]. destruct (v_children t) as [| a r]; reflexivity. Qed.
Lemma compact_children c t x y : p_children (compact c t x y) = row c y (v_children t) x.
Proof. rewrite compact_eq. reflexivity. Qed.
Lemma compact_node c t x y : exists nx, p_node (compact c t x y) = Node (v_id t) (v_label t) (Rect (Point nx y) (node_size c t)) /\
  nx = match v_children t with [] => x | _ => x + p_width (compact c t x y) / 2 - sw (node_size c t) / 2 end.
Proof. rewrite compact_eq. cbv zeta. cbn [p_node p_width]. eexists. split; [reflexivity|]. destruct (v_children t) as [| a r]; reflexivity. Qed.

Lemma row_width_cons c p q ps : row_width c (p :: q :: ps) == p_width p + tc_sibling c + row_width c (q :: ps).
Proof.
  unfold row_width. cbn [map length]. replace (S (S (length ps)) - 1)%nat with (S (length ps)) by lia. replace (S (length ps) - 1)%nat with (length ps) by lia.
  rewrite nat_q_S. cbn [Qsum fold_right]. ring.
Qed.
Lemma row_width_one c p : row_width c [p] == p_width p.
Proof. unfold row_width. cbn. unfold nat_q. cbn. ring. Qed.

Lemma total_row c t r : total (map (wide c) (t :: r)) + nat_q (length (t :: r) - 1) * tc_sibling c ==
  wide c t + match r with [] => 0 | _ => tc_sibling c + (total (map (wide c) r) + nat_q (length r - 1) * tc_sibling c) end.
Proof.
  destruct r as [| u r]; cbn [map total length].
  - unfold nat_q. cbn. ring.
  - replace (S (S (length r)) - 1)%nat with (S (length r)) by lia. replace (S (length r) - 1)%nat with (length r) by lia. rewrite nat_q_S. ring.
Qed.

Definition spans (p : placed) (x : Q) : Prop :=
  (forall n, In n (extract p) -> x <= min_x (n_rect n) /\ max_x (n_rect n) <= x + p_width p) /\
  (exists n, In n (extract p) /\ min_x (n_rect n) == x) /\ (exists n, In n (extract p) /\ max_x (n_rect n) == x + p_width p).

Lemma node_size_wide c t : sw (node_size c t) = wide c t.
Proof. unfold node_size, wide. destruct (v_size t); reflexivity. Qed.
Lemma node_size_tall c t : sh (node_size c t) = tall c t.
Proof. unfold node_size, tall. destruct (v_size t); reflexivity. Qed.

Definition left_of (c : tree_config) (p q : placed) : Prop := forall m n, In m (extract p) -> In n (extract q) -> max_x (n_rect m) + tc_sibling c <= min_x (n_rect n).

Lemma row_spans c y : 0 <= tc_sibling c -> forall l, l <> [] -> Forall (fun t => forall x y, spans (compact c t x y) x /\ wide c t <= p_width (compact c t x y) /\ 0 <= wide c t) l -> forall x,
  (forall n, In n (flat_map extract (row c y l x)) -> x <= min_x (n_rect n) /\ max_x (n_rect n) <= x + row_width c (row c y l x)) /\
  (exists n, In n (flat_map extract (row c y l x)) /\ min_x (n_rect n) == x) /\
  (exists n, In n (flat_map extract (row c y l x)) /\ max_x (n_rect n) == x + row_width c (row c y l x)) /\
  between (left_of c) (row c y l x) /\
  total (map (wide c) l) + nat_q (length l - 1) * tc_sibling c <= row_width c (row c y l x).
Proof.
  intros Hs. induction l as [| t r IH]; intros Hn F x; [contradiction|]. apply Forall_cons_iff in F. destruct F as [F1 F2]. rewrite row_cons. set (p := compact c t x (y + tc_level c)).
  destruct (F1 x (y + tc_level c)) as [(S1 & S2 & S3) [S4 S5]]. fold p in S1, S2, S3, S4. rewrite total_row. destruct r as [| u r].
  - cbn [row compact_loop flat_map]. change (row c y [] _) with (@nil placed). cbn [flat_map]. rewrite !app_nil_r. assert (Rw := row_width_one c p).
    split; [intros n H; apply S1 in H; lra|]. split; [assumption|]. split; [destruct S3 as (n & H & E); exists n; split; [assumption | lra]|]. split; [|lra].
    apply between_cons; [constructor | apply between_nil].
  - destruct (IH ltac:(discriminate) F2 (x + p_width p + tc_sibling c)) as (A & (n1 & N1 & E1) & (n2 & N2 & E2) & B & T).
    assert (Hw : row_width c (p :: row c y (u :: r) (x + p_width p + tc_sibling c)) == p_width p + tc_sibling c + row_width c (row c y (u :: r) (x + p_width p + tc_sibling c))) by (rewrite row_cons; apply row_width_cons).
    assert (A0 := A n1 N1). assert (Hnn : 0 <= row_width c (row c y (u :: r) (x + p_width p + tc_sibling c))).
    { assert (0 <= total (map (wide c) (u :: r)) + nat_q (length (u :: r) - 1) * tc_sibling c); [|lra]. assert (X := Qmult_le_0_compat _ _ (nat_q_nonneg (length (u :: r) - 1)) Hs).
      assert (0 <= total (map (wide c) (u :: r))); [|lra]. clear -F2. induction (u :: r) as [| v l IH]; cbn [map total]; [lra|]. apply Forall_cons_iff in F2. destruct F2 as [F F2]. specialize (IH F2). destruct (F 0 0) as (_ & _ & H). lra. }
    cbn [flat_map]. split; [|split; [|split; [|split]]].
    + intros n H. apply in_app_iff in H. destruct H as [H | H]; [apply S1 in H; lra | apply A in H; lra].
    + destruct S2 as (n & H & E). exists n. split; [apply in_app_iff; now left | assumption].
    + exists n2. split; [apply in_app_iff; now right | lra].
    + apply between_cons; [|assumption]. apply Forall_forall. intros q Hq m n Hm Hnq. apply S1 in Hm. assert (X : In n (flat_map extract (row c y (u :: r) (x + p_width p + tc_sibling c)))) by (apply in_flat_map; eauto).
      apply A in X. lra.
    + lra.
Qed.

Lemma compact_spans c : 0 <= tc_sibling c -> forall t, snug c t -> (forall s, In s (nodes_of t) -> 0 <= wide c s) ->
  forall x y, spans (compact c t x y) x /\ wide c t <= p_width (compact c t x y) /\ 0 <= wide c t.
Proof.
  intros Hs. induction t as [t IH] using vtree_ind2. intros Hg Hw x y.
  assert (W := Hw t (root_in t)). destruct (compact_node c t x y) as (nx & En & Ex). rewrite node_size_wide in Ex.
  assert (Ew := compact_width c t x y). assert (Cs := compact_children c t x y). rewrite node_size_wide in Ew.
  destruct (v_children t) as [| a r] eqn:Ecs.
  - rewrite Ew. split; [|split; [lra | assumption]]. unfold spans. rewrite extract_eq, Cs, En, Ew. cbn [row compact_loop flat_map]. unfold min_x, max_x.
    assert (Z : forall n, In n [Node (v_id t) (v_label t) (Rect (Point nx y) (node_size c t))] -> px (origin (n_rect n)) == x /\ px (origin (n_rect n)) + sw (extent (n_rect n)) == x + wide c t).
    { intros n [<- | []]. cbn [n_rect origin px extent]. rewrite node_size_wide, Ex. split; lra. }
    split; [intros n H; apply Z in H; lra|]. split; eexists; (split; [left; reflexivity | apply Z; now left]).
  - rewrite <- Ecs in *. assert (Ne : v_children t <> []) by (rewrite Ecs; discriminate).
    assert (F : Forall (fun t => forall x y, spans (compact c t x y) x /\ wide c t <= p_width (compact c t x y) /\ 0 <= wide c t) (v_children t)).
    { apply Forall_forall. intros k Hk. rewrite Forall_forall in IH. apply (IH k Hk).
      - intros s Hs'. apply Hg. eapply nodes_of_trans; [apply child_in; exact Hk | exact Hs'].
      - intros s Hs'. apply Hw. eapply nodes_of_trans; [apply child_in; exact Hk | exact Hs']. }
    destruct (row_spans c y Hs (v_children t) Ne F x) as (A & (n1 & N1 & E1) & (n2 & N2 & E2) & B & T).
    assert (G := Hg t (root_in t) Ne). change (wide c t <= total (map (wide c) (v_children t)) + nat_q (length (v_children t) - 1) * tc_sibling c) in G.
    split; [|split; [rewrite Ew; lra | assumption]]. unfold spans. rewrite Ew in Ex. rewrite extract_eq, Cs, En, Ew. clear Ew Cs En.
    split; [|split].
    + intros n [<- | H]; [|apply A; assumption]. unfold min_x, max_x. cbn [n_rect origin px extent]. rewrite node_size_wide, Ex. split; qlra.
    + exists n1. split; [now right | assumption].
    + exists n2. split; [now right | assumption].
Qed.

Lemma compact_ids c : forall t x y, map n_id (extract (compact c t x y)) = ids t.
Proof.
  induction t as [i l z cs IH] using vtree_ind'. intros x y. unfold ids. rewrite extract_eq, nodes_of_eq, compact_children. destruct (compact_node c (VNode i l z cs) x y) as (nx & -> & _). cbn [map n_id v_id v_children]. f_equal.
  clear nx. revert x. induction IH as [| t r Ht _ IH]; intros x; [reflexivity|]. rewrite row_cons. cbn [flat_map]. rewrite !map_app, IH. f_equal. apply Ht.
Qed.

Lemma compact_rooted c t x y : In (p_node (compact c t x y)) (extract (compact c t x y)).
Proof. rewrite extract_eq. now left. Qed.

(** The children of a tree and their places. *)
Lemma row_split c y A a B : forall x, exists xa, row c y (A ++ a :: B) x = row c y A x ++ compact c a xa (y + tc_level c) :: row c y B (xa + p_width (compact c a xa (y + tc_level c)) + tc_sibling c).
Proof.
  induction A as [| t r IH]; intros x; cbn [app]; [exists x; now rewrite row_cons|]. rewrite !row_cons. destruct (IH (x + p_width (compact c t x (y + tc_level c)) + tc_sibling c)) as (xa & E). exists xa. now rewrite E.
Qed.

Lemma compact_local c : forall t s x y, In s (nodes_of t) -> exists x' y', incl (extract (compact c s x' y')) (extract (compact c t x y)).
Proof.
  induction t as [i l z cs IH] using vtree_ind'. intros s x y Hs. rewrite nodes_of_eq in Hs. destruct Hs as [<- | Hs]; [exists x, y; apply incl_refl|]. cbn [v_children] in Hs.
  apply in_flat_map in Hs. destruct Hs as (k & Hk & Hs). rewrite Forall_forall in IH. apply in_split in Hk as Sp. destruct Sp as (A & B & E). destruct (row_split c y A k B x) as (xa & R). rewrite <- E in R.
  destruct (IH k Hk s xa (y + tc_level c) Hs) as (x' & y' & I). exists x', y'. intros n Hn. rewrite extract_eq, compact_children. right. cbn [v_children]. rewrite R. apply in_flat_map.
  exists (compact c k xa (y + tc_level c)). split; [apply in_app_iff; right; now left | now apply I].
Qed.

Lemma nodup_find {A} (f : A -> nat) l a b : NoDup (map f l) -> In a l -> In b l -> f a = f b -> a = b.
Proof.
  induction l as [| x l IH]; intros Nd Ha Hb E; [contradiction|]. cbn [map] in Nd. inversion Nd as [| ? ? N1 N2]; subst.
  destruct Ha as [-> | Ha], Hb as [-> | Hb]; [reflexivity | | | now apply IH].
  - exfalso. apply N1. rewrite E. now apply in_map.
  - exfalso. apply N1. rewrite <- E. now apply in_map.
Qed.

Lemma compact_nodes c t : NoDup (ids t) -> l_nodes (compact_layout c t) = extract (compact c t 0 0).
Proof. intros Nd. unfold compact_layout, layout_with. rewrite add_edges_nodes. apply add_nodes_fresh. now rewrite compact_ids. Qed.

Lemma compact_at c t s : NoDup (ids t) -> In s (nodes_of t) -> exists x y, (forall n, In n (extract (compact c s x y)) -> In n (extract (compact c t 0 0))) /\
  forall u r, In u (nodes_of s) -> placed_at (compact_layout c t) (v_id u) r -> exists n, In n (extract (compact c s x y)) /\ n_id n = v_id u /\ n_rect n = r.
Proof.
  intros Nd Hs. destruct (compact_local c t s 0 0 Hs) as (x & y & I). exists x, y. split; [exact I|]. intros u r Hu (n & Hn & Ei & Er). rewrite (compact_nodes c t Nd) in Hn. exists n. split; [|now split].
  assert (X : In (v_id u) (map n_id (extract (compact c s x y)))) by (rewrite compact_ids; now apply in_map). apply in_map_iff in X. destruct X as (m & Em & Hm).
  assert (m = n); [|now subst]. apply (nodup_find n_id (extract (compact c t 0 0))); [now rewrite compact_ids | now apply I | assumption | congruence].
Qed.

(** * Layered trees *)

Definition layered_row (c : tree_config) (w : levels) (level : nat) := fix each (l : list vtree) (cur : current) : list node * current :=
  match l with
  | [] => ([], cur)
  | t :: r => let '(a, cur1) := layered c w t (S level) cur in let '(b, cur2) := each r cur1 in (a ++ b, cur2)
  end.
Definition at_x (w : levels) (cur : current) (k : nat) : Q := match cur k with Some v => v | None => - w k / 2 end.

Lemma layered_eq c w t level cur : layered c w t level cur =
  let x := if (level =? 0)%nat then 0 else at_x w cur level + sw (node_size c t) / 2 in
  let '(rest, cur') := layered_row c w level (v_children t) (set_current cur level (at_x w cur level + sw (node_size c t) + tc_sibling c)) in
  (Node (v_id t) (v_label t) (Rect (Point x (nat_q level * tc_level c)) (node_size c t)) :: rest, cur').
Proof. destruct t. reflexivity. Qed.
Lemma layered_row_cons c w level t r cur : layered_row c w level (t :: r) cur =
  let '(a, cur1) := layered c w t (S level) cur in let '(b, cur2) := layered_row c w level r cur1 in (a ++ b, cur2).
Proof. reflexivity. Qed.

Lemma at_x_set w cur i v k : at_x w (set_current cur i v) k = if (k =? i)%nat then v else at_x w cur k.
Proof. unfold at_x, set_current. destruct (k =? i)%nat; reflexivity. Qed.

Definition left_x (n : node) : Q := px (origin (n_rect n)) - sw (extent (n_rect n)) / 2.
Definition at_level (c : tree_config) (n : node) (k : nat) : Prop := (1 <= k)%nat /\ py (origin (n_rect n)) = nat_q k * tc_level c.
Definition before_at (c : tree_config) (a b : node) : Prop := exists ka kb, at_level c a ka /\ at_level c b kb /\
  (ka = kb -> left_x a + sw (extent (n_rect a)) + tc_sibling c <= left_x b).
Definition slotted (c : tree_config) (w : levels) (us : list vtree) (cur cur' : current) (L : list node) : Prop :=
  (forall k, at_x w cur k <= at_x w cur' k) /\
  (forall n, In n L -> (exists u, In u us /\ extent (n_rect n) = node_size c u) /\ exists k, at_level c n k /\ at_x w cur k <= left_x n /\ left_x n + sw (extent (n_rect n)) + tc_sibling c <= at_x w cur' k) /\
  between (before_at c) L.

Lemma slotted_app c w us vs cur cur1 cur2 A B : slotted c w us cur cur1 A -> slotted c w vs cur1 cur2 B -> slotted c w (us ++ vs) cur cur2 (A ++ B).
Proof.
  intros (A1 & A2 & A3) (B1 & B2 & B3). split; [|split].
  - intros k. specialize (A1 k). specialize (B1 k). lra.
  - intros n H. apply in_app_iff in H. destruct H as [H | H].
    + destruct (A2 n H) as [(u & Hu & E) (k & K & L1 & L2)]. split; [exists u; split; [apply in_app_iff; now left | assumption]|]. exists k. split; [assumption|]. specialize (B1 k). lra.
    + destruct (B2 n H) as [(u & Hu & E) (k & K & L1 & L2)]. split; [exists u; split; [apply in_app_iff; now right | assumption]|]. exists k. split; [assumption|]. specialize (A1 k). lra.
  - apply between_app; [assumption | assumption|]. intros a b Ha Hb. destruct (A2 a Ha) as [_ (k & K & L1 & L2)]. destruct (B2 b Hb) as [_ (j & J & M1 & M2)]. exists k, j. split; [assumption|]. split; [assumption|]. intros ->. lra.
Qed.

Lemma layered_slotted c w : 0 <= tc_sibling c -> forall t, (forall s, In s (nodes_of t) -> 0 <= wide c s) -> forall level cur, (1 <= level)%nat ->
  slotted c w (nodes_of t) cur (snd (layered c w t level cur)) (fst (layered c w t level cur)).
Proof.
  intros Hs. induction t as [t IH] using vtree_ind2. intros Hw level cur Hl. rewrite layered_eq, nodes_of_eq. cbv zeta. destruct (Nat.eqb_spec level 0) as [E0 | _]; [lia|].
  set (cur0 := set_current cur level (at_x w cur level + sw (node_size c t) + tc_sibling c)).
  assert (R : slotted c w (flat_map nodes_of (v_children t)) cur0 (snd (layered_row c w level (v_children t) cur0)) (fst (layered_row c w level (v_children t) cur0))).
  { assert (Hw' : forall k s, In k (v_children t) -> In s (nodes_of k) -> 0 <= wide c s) by (intros k s Hk Hs'; apply Hw; eapply nodes_of_trans; [apply child_in; exact Hk | exact Hs']).
    clear Hw. generalize cur0. clear cur0. induction (v_children t) as [| k r IHr]; intros cur0.
    - split; [intros k; cbn; lra|]. split; [intros n [] | apply between_nil].
    - rewrite layered_row_cons. apply Forall_cons_iff in IH. destruct IH as [IHk IHr']. specialize (IHk (fun s => Hw' k s (or_introl eq_refl)) (S level) cur0 ltac:(lia)).
      destruct (layered c w k (S level) cur0) as [a cur1]. specialize (IHr IHr' (fun k' s H => Hw' k' s (or_intror H)) cur1). destruct (layered_row c w level r cur1) as [b cur2]. cbn [fst snd flat_map] in *.
      eapply slotted_app; eassumption. }
  destruct (layered_row c w level (v_children t) cur0) as [rest cur']. cbn [fst snd] in *.
  change (t :: flat_map nodes_of (v_children t)) with ([t] ++ flat_map nodes_of (v_children t)).
  change (?n :: rest) with ([n] ++ rest). eapply slotted_app; [|exact R]. assert (W := Hw t (root_in t)). rewrite <- node_size_wide in W.
  split; [|split].
  - intros k. unfold cur0. rewrite at_x_set. destruct (Nat.eqb_spec k level) as [-> | _]; lra.
  - intros n [<- | []]. split; [exists t; split; [now left | reflexivity]|]. exists level. unfold left_x, cur0. rewrite at_x_set, Nat.eqb_refl. cbn [n_rect origin px extent]. split; [split; [assumption | reflexivity]|]. split; qlra.
  - apply between_cons; [constructor | apply between_nil].
Qed.

Lemma layered_row_slotted c w : 0 <= tc_sibling c -> forall l level cur, (forall k s, In k l -> In s (nodes_of k) -> 0 <= wide c s) ->
  slotted c w (flat_map nodes_of l) cur (snd (layered_row c w level l cur)) (fst (layered_row c w level l cur)).
Proof.
  intros Hs. induction l as [| k r IHr]; intros level cur Hw.
  - split; [intros k; cbn; lra|]. split; [intros n [] | apply between_nil].
  - rewrite layered_row_cons. assert (IHk := layered_slotted c w Hs k (fun s => Hw k s (or_introl eq_refl)) (S level) cur ltac:(lia)).
    destruct (layered c w k (S level) cur) as [a cur1]. specialize (IHr level cur1 (fun k' s H => Hw k' s (or_intror H))). destruct (layered_row c w level r cur1) as [b cur2]. cbn [fst snd flat_map] in *.
    eapply slotted_app; eassumption.
Qed.

Lemma layered_ids c w : forall t level cur, map n_id (fst (layered c w t level cur)) = ids t.
Proof.
  induction t as [t IH] using vtree_ind2. intros level cur. rewrite layered_eq. unfold ids. rewrite nodes_of_eq. cbv zeta.
  generalize (set_current cur level (at_x w cur level + sw (node_size c t) + tc_sibling c)). intros cur0.
  assert (R : map n_id (fst (layered_row c w level (v_children t) cur0)) = map v_id (flat_map nodes_of (v_children t))).
  { revert cur0. induction IH as [| k r Hk _ IHr]; intros cur0; [reflexivity|]. rewrite layered_row_cons. specialize (Hk (S level) cur0). destruct (layered c w k (S level) cur0) as [a cur1].
    specialize (IHr cur1). destruct (layered_row c w level r cur1) as [b cur2]. cbn [fst flat_map] in *. rewrite !map_app, IHr. f_equal. exact Hk. }
  destruct (layered_row c w level (v_children t) cur0) as [rest cur']. cbn [fst] in *. cbn [map n_id]. now rewrite R.
Qed.

Lemma layered_nodes c t : NoDup (ids t) -> l_nodes (layered_layout c t) = fst (layered c (level_widths c t 0 (fun _ => 0)) t 0 (fun _ => None)).
Proof. intros Nd. unfold layered_layout, layout_with. rewrite add_edges_nodes. apply add_nodes_fresh. now rewrite layered_ids. Qed.

Lemma rows_apart (h d : Q) (a b : nat) : 0 <= h -> h <= d -> (a < b)%nat -> nat_q a * d + h <= nat_q b * d.
Proof.
  intros Hh Hd H. assert (X : nat_q (S a) <= nat_q b) by (apply nat_q_le; lia). rewrite nat_q_S in X. assert (Hd' : 0 <= d) by lra. assert (Y := Qmult_le_compat_r _ _ d X Hd'). lra.
Qed.

(** * Grids and layers *)

Definition cell (w h : Q) (i j : nat) (n : node) : Prop := px (origin (n_rect n)) = nat_q i * w /\ py (origin (n_rect n)) = nat_q j * h.

Lemma grid_spec c cols : forall vs i, Forall2 (fun v n => n_id n = vx_id v /\ n_label n = vx_label v /\ extent (n_rect n) = vertex_size c v) vs (grid c cols i vs) /\
  (forall n, In n (grid c cols i vs) -> exists k, (i <= k)%nat /\ cell (gc_width c + gc_spacing c) (gc_height c + gc_spacing c) (k mod cols) (k / cols) n) /\
  between (fun a b => exists ka kb, (ka < kb)%nat /\ cell (gc_width c + gc_spacing c) (gc_height c + gc_spacing c) (ka mod cols) (ka / cols) a /\ cell (gc_width c + gc_spacing c) (gc_height c + gc_spacing c) (kb mod cols) (kb / cols) b) (grid c cols i vs).
Proof.
  induction vs as [| v r IH]; intros i; cbn [grid]; [split; [constructor|]; split; [intros n [] | apply between_nil]|]. destruct (IH (S i)) as (A & B & C).
  split; [constructor; [now split | assumption]|]. split.
  - intros n [<- | H]; [exists i; split; [lia | split; reflexivity]|]. destruct (B n H) as (k & Hk & E). exists k. split; [lia | assumption].
  - apply between_cons; [|assumption]. apply Forall_forall. intros b Hb. destruct (B b Hb) as (k & Hk & E). exists i, k. split; [lia|]. split; [split; reflexivity | assumption].
Qed.

Lemma cells_apart w h ia ja ib jb a b : cell w h ia ja a -> cell w h ib jb b -> (ia, ja) <> (ib, jb) ->
  0 <= sw (extent (n_rect a)) <= w -> 0 <= sh (extent (n_rect a)) <= h -> 0 <= sw (extent (n_rect b)) <= w -> 0 <= sh (extent (n_rect b)) <= h -> ~ overlap (n_rect a) (n_rect b).
Proof.
  intros [A1 A2] [B1 B2] N Wa Ha Wb Hb.
  destruct (Nat.lt_trichotomy ja jb) as [H | [-> | H]].
  - apply apart_y. unfold max_y, min_y. rewrite A2, B2. now apply rows_apart.
  - destruct (Nat.lt_trichotomy ia ib) as [H | [-> | H]]; [| contradiction |].
    + apply apart_x. unfold max_x, min_x. rewrite A1, B1. now apply rows_apart.
    + apply apart_x'. unfold max_x, min_x. rewrite A1, B1. now apply rows_apart.
  - apply apart_y'. unfold max_y, min_y. rewrite A2, B2. now apply rows_apart.
Qed.

Lemma div_mod_distinct c a b : (c <> 0)%nat -> a <> b -> (a mod c, a / c)%nat <> (b mod c, b / c)%nat.
Proof. intros Hc N E. injection E as E1 E2. apply N. rewrite (Nat.div_mod a c Hc), (Nat.div_mod b c Hc). now rewrite E1, E2. Qed.

Definition drawn_from (c : graph_config) (vs : list vertex) (n : node) : Prop := exists v, In v vs /\ n_id n = vx_id v /\ n_label n = vx_label v /\ extent (n_rect n) = vertex_size c v.
Definition pitch (c : graph_config) : Q := gc_width c + gc_spacing c.

Lemma layer_row_spec c vs y s : forall layer i, (forall id, In id layer -> In id (map vx_id vs)) -> exists ns, layer_row c vs y s i layer = Some ns /\ map n_id ns = layer /\
  (forall n, In n ns -> drawn_from c vs n /\ py (origin (n_rect n)) = y /\ exists k, (i <= k)%nat /\ px (origin (n_rect n)) = s + nat_q k * pitch c) /\
  between (fun a b => exists ka kb, (ka < kb)%nat /\ px (origin (n_rect a)) = s + nat_q ka * pitch c /\ px (origin (n_rect b)) = s + nat_q kb * pitch c) ns.
Proof.
  induction layer as [| id r IH]; intros i H; cbn [layer_row]; [exists []; split; [reflexivity|]; split; [reflexivity|]; split; [intros n [] | apply between_nil]|].
  destruct (IH (S i) (fun id' Hi => H id' (or_intror Hi))) as (ns & -> & Ei & A & B).
  assert (F : exists v, find (fun v => (vx_id v =? id)%nat) vs = Some v).
  { specialize (H id (or_introl eq_refl)). apply in_map_iff in H. destruct H as (v & Ev & Hv). destruct (find (fun v => (vx_id v =? id)%nat) vs) as [u|] eqn:E; [eauto|]. exfalso. apply (find_none _ _ E) in Hv. cbn beta in Hv. rewrite Ev, Nat.eqb_refl in Hv. discriminate. }
  destruct F as (v & Ev). rewrite Ev. apply find_some in Ev. destruct Ev as [Hv Ev]. apply Nat.eqb_eq in Ev.
  eexists. split; [reflexivity|]. split; [cbn [map n_id]; now rewrite Ei, Ev|]. split.
  - intros n [<- | Hn].
    + split; [exists v; now split|]. split; [reflexivity|]. exists i. now split.
    + destruct (A n Hn) as (D & Y & k & Hk & E). split; [assumption|]. split; [assumption|]. exists k. split; [lia | assumption].
  - apply between_cons; [|assumption]. apply Forall_forall. intros b Hb. destruct (A b Hb) as (_ & _ & k & Hk & E). exists i, k. split; [lia|]. now split.
Qed.

Definition in_rows (c : graph_config) (a b : node) : Prop := exists ja jb, py (origin (n_rect a)) = nat_q ja * gc_layer c /\ py (origin (n_rect b)) = nat_q jb * gc_layer c /\
  (ja <> jb \/ exists s ka kb, (ka < kb)%nat /\ px (origin (n_rect a)) = s + nat_q ka * pitch c /\ px (origin (n_rect b)) = s + nat_q kb * pitch c).

Lemma layer_rows_spec c vs : forall layers i, (forall id, In id (concat layers) -> In id (map vx_id vs)) -> exists ns, layer_rows c vs i layers = Some ns /\ map n_id ns = concat layers /\
  (forall n, In n ns -> drawn_from c vs n /\ exists j, (i <= j)%nat /\ py (origin (n_rect n)) = nat_q j * gc_layer c) /\ between (in_rows c) ns.
Proof.
  induction layers as [| layer r IH]; intros i H; cbn [layer_rows]; [exists []; split; [reflexivity|]; split; [reflexivity|]; split; [intros n [] | apply between_nil]|].
  cbn [concat] in H. destruct (IH (S i) (fun id Hi => H id (proj2 (in_app_iff _ _ _) (or_intror Hi)))) as (ns & -> & Ei & A & B).
  destruct (layer_row_spec c vs (inject_Z (Z.of_nat i) * gc_layer c) (- (inject_Z (Z.of_nat (length layer)) * (gc_width c + gc_spacing c)) / 2) layer 0 (fun id Hi => H id (proj2 (in_app_iff _ _ _) (or_introl Hi)))) as (ms & -> & Em & C & D).
  exists (ms ++ ns). split; [reflexivity|]. split; [rewrite map_app; cbn [concat]; congruence|]. split.
  - intros n Hn. apply in_app_iff in Hn. destruct Hn as [Hn | Hn].
    + destruct (C n Hn) as (X & Y & _). split; [assumption|]. exists i. now split.
    + destruct (A n Hn) as (X & j & Hj & Y). split; [assumption|]. exists j. split; [lia | assumption].
  - apply between_app; [| assumption |].
    + eapply between_impl; [|exact D]. intros a b Ha Hb (ka & kb & Hk & Xa & Xb). destruct (C a Ha) as (_ & Ya & _). destruct (C b Hb) as (_ & Yb & _). exists i, i. split; [assumption|]. split; [assumption|]. right. eauto 8.
    + intros a b Ha Hb. destruct (C a Ha) as (_ & Ya & _). destruct (A b Hb) as (_ & j & Hj & Yb). exists i, j. split; [assumption|]. split; [assumption|]. left. lia.
Qed.

Lemma rows_no_overlap c a b : in_rows c a b -> 0 <= sw (extent (n_rect a)) <= pitch c -> 0 <= sw (extent (n_rect b)) <= pitch c ->
  0 <= sh (extent (n_rect a)) <= gc_layer c -> 0 <= sh (extent (n_rect b)) <= gc_layer c -> ~ overlap (n_rect a) (n_rect b).
Proof.
  intros (ja & jb & Ya & Yb & C) Wa Wb Ha Hb. destruct (Nat.lt_trichotomy ja jb) as [L | [-> | L]].
  - apply apart_y. unfold max_y, min_y. rewrite Ya, Yb. now apply rows_apart.
  - destruct C as [C | (s & ka & kb & Hk & Xa & Xb)]; [contradiction|]. apply apart_x. unfold max_x, min_x. rewrite Xa, Xb. assert (X := rows_apart (sw (extent (n_rect a))) (pitch c) ka kb ltac:(lra) ltac:(lra) Hk). lra.
  - apply apart_y'. unfold max_y, min_y. rewrite Ya, Yb. now apply rows_apart.
Qed.

(** * The hierarchical engine *)

Section hierarchy_induction.
  Variable P : hierarchy -> Prop.
  Hypothesis H : forall i s cs, Forall P cs -> P (Hier i s cs).
  Fixpoint hierarchy_ind' (t : hierarchy) : P t :=
    match t with
    | Hier i s cs => H i s cs ((fix each (l : list hierarchy) : Forall P l := match l with [] => Forall_nil P | c :: r => Forall_cons c (hierarchy_ind' c) (each r) end) cs)
    end.
End hierarchy_induction.

Fixpoint h_items (h : hierarchy) : list (nat * size) :=
  match h with Hier i s cs => (i, s) :: (fix each (l : list hierarchy) := match l with [] => [] | c :: r => h_items c ++ each r end) cs end.
Lemma h_items_eq i s cs : h_items (Hier i s cs) = (i, s) :: flat_map h_items cs.
Proof. reflexivity. Qed.

Definition top_down_row (c : layout_config) := fix each (l : list hierarchy) (child_x y : Q) : list node * Q :=
  match l with
  | [] => ([], y)
  | h :: r => let '(a, y1) := top_down c h child_x y in let '(b, y2) := each r (child_x + sw (h_size h) + lc_horizontal c) y1 in (a ++ b, y2)
  end.
Lemma top_down_eq c i s cs x y : top_down c (Hier i s cs) x y =
  let '(rest, y') := top_down_row c cs (x + lc_horizontal c) (y + (sh s + lc_vertical c)) in (Node i [] (Rect (Point x y) s) :: rest, y').
Proof. reflexivity. Qed.
Lemma top_down_row_cons c h r x y : top_down_row c (h :: r) x y =
  let '(a, y1) := top_down c h x y in let '(b, y2) := top_down_row c r (x + sw (h_size h) + lc_horizontal c) y1 in (a ++ b, y2).
Proof. reflexivity. Qed.

Definition above (a b : node) : Prop := max_y (n_rect a) <= min_y (n_rect b).
Definition stacked (ps : list (nat * size)) (y y' : Q) (L : list node) : Prop :=
  map (fun n => (n_id n, extent (n_rect n))) L = ps /\ (Forall (fun p => 0 <= sh (snd p)) ps ->
  y <= y' /\ (forall n, In n L -> y <= min_y (n_rect n) /\ max_y (n_rect n) <= y') /\ between above L).

Lemma stacked_app ps qs y y1 y2 A B : stacked ps y y1 A -> stacked qs y1 y2 B -> stacked (ps ++ qs) y y2 (A ++ B).
Proof.
  intros [Ea A0] [Eb B0]. split; [rewrite map_app; congruence|]. intros F. apply Forall_app in F. destruct F as [Fa Fb]. destruct (A0 Fa) as (A1 & A2 & A3). destruct (B0 Fb) as (B1 & B2 & B3). split; [lra|]. split.
  - intros n H. apply in_app_iff in H. destruct H as [H | H]; [apply A2 in H; lra | apply B2 in H; lra].
  - apply between_app; [assumption | assumption|]. intros a b Ha Hb. apply A2 in Ha. apply B2 in Hb. unfold above. lra.
Qed.
Lemma stacked_nil y : stacked [] y y [].
Proof. split; [reflexivity|]. intros _. split; [lra|]. split; [intros n [] | apply between_nil]. Qed.

Lemma top_down_stacked c : 0 <= lc_vertical c -> forall h x y, stacked (h_items h) y (snd (top_down c h x y)) (fst (top_down c h x y)).
Proof.
  intros Hv. induction h as [i s cs IH] using hierarchy_ind'. intros x y. rewrite top_down_eq, h_items_eq.
  assert (R : forall x' y', stacked (flat_map h_items cs) y' (snd (top_down_row c cs x' y')) (fst (top_down_row c cs x' y'))).
  { induction IH as [| k r Hk _ IHr]; intros x' y'; [apply stacked_nil|]. rewrite top_down_row_cons. specialize (Hk x' y'). destruct (top_down c k x' y') as [a y1].
    specialize (IHr (x' + sw (h_size k) + lc_horizontal c) y1). destruct (top_down_row c r _ y1) as [b y2]. cbn [fst snd flat_map] in *. eapply stacked_app; eassumption. }
  specialize (R (x + lc_horizontal c) (y + (sh s + lc_vertical c))). destruct (top_down_row c cs _ _) as [rest y']. cbn [fst snd] in *.
  change ((i, s) :: flat_map h_items cs) with ([(i, s)] ++ flat_map h_items cs). change (?n :: rest) with ([n] ++ rest). eapply stacked_app; [|exact R].
  split; [reflexivity|]. intros F. apply Forall_cons_iff in F. destruct F as [F _]. cbn [snd] in F. split; [lra|]. split; [|apply between_cons; [constructor | apply between_nil]].
  intros n [<- | []]. unfold min_y, max_y. cbn [n_rect origin py extent]. split; lra.
Qed.

Lemma top_down_all_stacked c : 0 <= lc_vertical c -> forall hs y, stacked (flat_map h_items hs) y (snd (top_down_all c hs y)) (fst (top_down_all c hs y)).
Proof.
  intros Hv. induction hs as [| h r IH]; intros y; [apply stacked_nil|]. cbn [top_down_all flat_map]. assert (T := top_down_stacked c Hv h (lc_margin c) y). destruct (top_down c h (lc_margin c) y) as [a y1].
  specialize (IH (y1 + lc_vertical c)). destruct (top_down_all c r (y1 + lc_vertical c)) as [b y2]. cbn [fst snd] in *. eapply stacked_app; [exact T|]. destruct IH as [E I]. split; [assumption|]. intros F. destruct (I F) as (I1 & I2 & I3). split; [lra|]. split; [|assumption].
  intros n H. apply I2 in H. lra.
Qed.

Lemma traverse_spec {A B} (f : A -> option B) l : (forall a, In a l -> exists b, f a = Some b) -> exists bs, traverse f l = Some bs /\ Forall2 (fun a b => f a = Some b) l bs.
Proof.
  induction l as [| a r IH]; intros H; [exists []; split; [reflexivity | constructor]|]. cbn [traverse]. destruct (H a (or_introl eq_refl)) as (b & Eb). destruct (IH (fun x Hx => H x (or_intror Hx))) as (bs & -> & F). rewrite Eb.
  exists (b :: bs). split; [reflexivity | now constructor].
Qed.
Lemma traverse_inv {A B} (f : A -> option B) l : forall bs, traverse f l = Some bs -> Forall2 (fun a b => f a = Some b) l bs.
Proof.
  induction l as [| a r IH]; intros bs H; cbn [traverse] in H; [injection H as <-; constructor|]. destruct (f a) as [b|] eqn:E; [|discriminate]. destruct (traverse f r) as [cs|]; [|discriminate]. injection H as <-. constructor; [assumption | now apply IH].
Qed.
Lemma traverse_none {A B} (f : A -> option B) l a : In a l -> f a = None -> traverse f l = None.
Proof.
  induction l as [| x r IH]; intros Hi Hn; [contradiction|]. cbn [traverse]. destruct Hi as [-> | Hi]; [now rewrite Hn|]. rewrite (IH Hi Hn). destruct (f x); reflexivity.
Qed.

(** Whatever is built consists of the items with their sizes. *)
Lemma build_node_items fuel items es : forall id h, build_node fuel items es id = Some h -> forall i s, In (i, s) (h_items h) -> exists n, In n items /\ i_id n = i /\ i_size n = s.
Proof.
  induction fuel as [| f IH]; intros id h E i s Hi; cbn [build_node] in E; [discriminate|]. destruct (find _ items) as [n|] eqn:Ef; [|discriminate].
  destruct (traverse _ _) as [hs|] eqn:Et; [|discriminate]. cbn [option_map] in E. injection E as <-. rewrite h_items_eq in Hi. destruct Hi as [Hi | Hi].
  - injection Hi as <- <-. apply find_some in Ef. destruct Ef as [Hn E]. apply Nat.eqb_eq in E. now exists n.
  - apply in_flat_map in Hi. destruct Hi as (h & Hh & Hi). apply traverse_inv in Et. clear -Et Hh Hi IH. induction Et as [| a b l bs E _ IHt]; [contradiction|]. destruct Hh as [-> | Hh]; [exact (IH a h E i s Hi) | now apply IHt].
Qed.

Lemma build_node_some items es (rk : nat -> nat) : (forall u v, In (u, v) es -> (rk v < rk u)%nat) -> (forall u v, In (u, v) es -> In v (map i_id items)) ->
  forall fuel id, (rk id < fuel)%nat -> In id (map i_id items) -> exists h, build_node fuel items es id = Some h.
Proof.
  intros Hrk Hc. induction fuel as [| f IH]; intros id Hf Hi; [lia|]. cbn [build_node].
  destruct (find (fun n => (i_id n =? id)%nat) items) as [n|] eqn:Ef.
  - destruct (traverse_spec (build_node f items es) (map snd (filter (fun e => (fst e =? id)%nat) es))) as (hs & -> & _); [|now eexists].
    intros v Hv. apply in_map_iff in Hv. destruct Hv as ([u w] & E & Hv). cbn [snd] in E. subst w. apply filter_In in Hv. destruct Hv as [Hv E]. cbn [fst] in E. apply Nat.eqb_eq in E. subst u.
    apply IH; [specialize (Hrk _ _ Hv); lia | now apply (Hc id)].
  - exfalso. apply in_map_iff in Hi. destruct Hi as (n & E & Hn). apply (find_none _ _ Ef) in Hn. cbn beta in Hn. rewrite E, Nat.eqb_refl in Hn. discriminate.
Qed.

(** Everything reachable from a node is built below it. *)
Lemma build_node_reach items es : forall a b, walk (Graph (map i_id items) es true) a b -> forall fuel h, build_node fuel items es a = Some h -> In b (map fst (h_items h)).
Proof.
  intros a b W. induction W as [a | a b c S W IH]; intros fuel h E; destruct fuel as [| f]; cbn [build_node] in E; try discriminate.
  - destruct (find _ items); [|discriminate]. destruct (traverse _ _); [|discriminate]. injection E as <-. rewrite h_items_eq. now left.
  - destruct (find _ items) as [n|]; [|discriminate]. destruct (traverse _ _) as [hs|] eqn:Et; [|discriminate]. injection E as <-. rewrite h_items_eq. right.
    apply traverse_inv in Et. destruct S as [S | [D _]]; [|discriminate D]. cbn [gr_edges] in S.
    assert (Hb : In b (map snd (filter (fun e => (fst e =? a)%nat) es))) by (apply in_map_iff; exists (a, b); split; [reflexivity|]; apply filter_In; split; [assumption | apply Nat.eqb_refl]).
    clear S. induction Et as [| u k l bs Eu _ IHt]; [contradiction|]. cbn [flat_map]. rewrite map_app. apply in_app_iff. destruct Hb as [-> | Hb]; [left; exact (IH f k Eu) | right; now apply IHt].
Qed.

(** In an acyclic graph every node is reachable from one without predecessors. *)
Lemma root_above nodes es (rk : nat -> nat) bound : (forall u v, In (u, v) es -> (rk v < rk u)%nat) -> (forall u v, In (u, v) es -> In u nodes) -> (forall u, In u nodes -> (rk u <= bound)%nat) ->
  forall k x, In x nodes -> (bound - rk x <= k)%nat -> exists r, In r nodes /\ ~ In r (map snd es) /\ walk (Graph nodes es true) r x.
Proof.
  intros Hrk Hc Hb. induction k as [| k IH]; intros x Hx Hk; destruct (in_dec Nat.eq_dec x (map snd es)) as [Hi | Hi].
  - apply in_map_iff in Hi. destruct Hi as ([u v] & E & Hi). cbn in E. subst v. assert (X := Hrk _ _ Hi). assert (Y := Hb u (Hc _ _ Hi)). lia.
  - exists x. split; [assumption|]. split; [assumption | constructor].
  - apply in_map_iff in Hi. destruct Hi as ([u v] & E & Hi). cbn in E. subst v. assert (X := Hrk _ _ Hi). assert (Y := Hb u (Hc _ _ Hi)).
    destruct (IH u (Hc _ _ Hi) ltac:(lia)) as (r & Hr & Nr & W). exists r. split; [assumption|]. split; [assumption|]. eapply walk_app; [exact W|]. eapply WStep; [left; exact Hi | constructor].
  - exists x. split; [assumption|]. split; [assumption | constructor].
Qed.
