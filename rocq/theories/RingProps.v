(** Theorems about the layouts by angles and by forces. *)
From Verif Require Import Base RingModel RingSpec RingProofs ForceProofs.
Require Import Reals Lra Permutation.
Open Scope R_scope.

(** ** The circular layout of a graph *)
Lemma circular_bodies c vs es : NoDup (map v_id vs) -> bodies (circular_layout c vs es) = circle c (2 * PI / INR (length vs)) 0 vs.
Proof. intros N. destruct vs as [| v vs]; [reflexivity|]. unfold circular_layout. cbv zeta. cbn [bodies]. apply table_nodup. now rewrite circle_ids. Qed.
Lemma circular_nth c vs es i b : NoDup (map v_id vs) -> nth_error (bodies (circular_layout c vs es)) i = Some b ->
  (i < length vs)%nat /\ exists v, nth_error vs i = Some v /\ b = vert_body c v (on_circle (Spot 0 0) (fc_radius c) (INR i * (2 * PI / INR (length vs)))).
Proof.
  intros N E. rewrite (circular_bodies c vs es N) in E. assert (L : (i < length vs)%nat). { apply nth_lt in E. rewrite <- (map_length b_id), circle_ids, map_length in E. exact E. }
  split; [exact L|]. destruct (nth_error vs i) as [v|] eqn:V; [|apply nth_error_None in V; lia]. exists v. split; [reflexivity|]. rewrite (circle_nth c _ vs 0 i v V) in E. injection E as <-. reflexivity.
Qed.
(** Every node is there once and with its size, on a circle around the origin, the first one to the right; every edge with two
    known ends is drawn from middle to middle. *)
Theorem circular_layout_on_a_circle c vs es : NoDup (map v_id vs) -> 0 <= fc_radius c ->
  let l := circular_layout c vs es in
  Forall2 (fun v b => b_id b = v_id v /\ sized (Dims (fc_width c) (fc_height c)) (v_size v) b) vs (bodies l) /\
  Forall (fun b => far (middle (b_box b)) (Spot 0 0) (fc_radius c)) (bodies l) /\
  (forall b, nth_error (bodies l) 0 = Some b -> middle (b_box b) = Spot (fc_radius c) 0) /\
  drawing (bodies l) (map (fun a => (a_from a, a_to a)) es) (lines l).
Proof.
  intros N P. cbv zeta. split; [|split; [|split]].
  - rewrite (circular_bodies c vs es N). generalize (2 * PI / INR (length vs)) as step. intros step. clear. generalize 0%nat. induction vs as [| v vs IH]; intros i; [constructor|]. cbn [circle]. constructor; [|apply IH]. split; [reflexivity|]. unfold sized. cbn. destruct (v_size v); [now left | now right].
  - apply Forall_forall. intros b I. apply In_nth_error in I. destruct I as (i & E). destruct (circular_nth c vs es i b N E) as (_ & v & _ & ->). cbn [b_box vert_body]. rewrite middle_around. apply ray_far. exact P.
  - intros b E. destruct (circular_nth c vs es 0 b N E) as (_ & v & _ & ->). cbn [b_box vert_body]. rewrite middle_around. unfold on_circle. cbn [x_of y_of]. change (INR 0) with 0. rewrite Rmult_0_l, cos_0, sin_0. f_equal; ring.
  - destruct vs as [| v vs]; [cbn; change (drawing [] (map arc_ends es) []); clear; induction es as [| a es IH]; [constructor | apply DrawLess; [left; intros [] | exact IH]]|]. apply joined_drawing.
Qed.
Print Assumptions circular_layout_on_a_circle.

(** The distance of two nodes is the chord of their angle. *)
Theorem circular_layout_distances c vs es i j a b : NoDup (map v_id vs) -> 0 <= fc_radius c ->
  let l := circular_layout c vs es in
  (i < j)%nat -> nth_error (bodies l) i = Some a -> nth_error (bodies l) j = Some b ->
  far (middle (b_box b)) (middle (b_box a)) (2 * fc_radius c * sin (INR (j - i) * PI / INR (length vs))).
Proof.
  intros N P. cbv zeta. intros L A B. destruct (circular_nth c vs es i a N A) as (_ & v & _ & ->). destruct (circular_nth c vs es j b N B) as (J & w & _ & ->). cbn [b_box vert_body]. rewrite !middle_around.
  assert (Hn : 0 < INR (length vs)) by (apply lt_0_INR; lia). pose proof PI_RGT_0 as Pi.
  assert (E : INR (j - i) * PI / INR (length vs) = (INR j * (2 * PI / INR (length vs)) - INR i * (2 * PI / INR (length vs))) / 2) by (rewrite minus_INR by lia; field; lra).
  rewrite E. apply chord_far; [exact P|]. rewrite <- E. split.
  - apply Rmult_le_pos; [apply Rmult_le_pos; [apply pos_INR | lra] | left; now apply Rinv_0_lt_compat].
  - apply (Rmult_le_reg_r (INR (length vs))); [exact Hn|]. unfold Rdiv. rewrite Rmult_assoc, Rinv_l, Rmult_1_r by lra. rewrite Rmult_comm. apply Rmult_le_compat_l; [lra|]. apply le_INR. lia.
Qed.
Print Assumptions circular_layout_distances.

(** Nodes that are small for the circle do not overlap. *)
Theorem circular_layout_apart c vs es w h i j a b : NoDup (map v_id vs) -> 0 <= fc_radius c ->
  let l := circular_layout c vs es in
  Forall (fun b => 0 <= wide (sides (b_box b)) <= w /\ 0 <= high (sides (b_box b)) <= h) (bodies l) ->
  w * w + h * h <= (2 * fc_radius c * sin (PI / INR (length vs))) * (2 * fc_radius c * sin (PI / INR (length vs))) ->
  (i < j)%nat -> nth_error (bodies l) i = Some a -> nth_error (bodies l) j = Some b -> ~ overlap (b_box a) (b_box b).
Proof.
  intros N P. cbv zeta. intros Sz Sm L A B. pose proof (circular_layout_distances c vs es i j a b N P L A B) as F. destruct (circular_nth c vs es j b N B) as (J & _). rewrite Forall_forall in Sz. pose proof (Sz a (nth_error_In _ _ A)) as [Wa Ha]. pose proof (Sz b (nth_error_In _ _ B)) as [Wb Hb].
  set (n := INR (length vs)) in *. assert (Hn : 2 <= n) by (unfold n; replace 2 with (INR 2) by reflexivity; apply le_INR; lia). pose proof PI_RGT_0 as Pi. set (k := INR (j - i)) in *. assert (K1 : 1 <= k) by (unfold k; replace 1 with (INR 1) by reflexivity; apply le_INR; lia).
  assert (K2 : k <= n - 1). { unfold k, n. replace (INR (length vs) - 1) with (INR (length vs - 1)) by (rewrite minus_INR by lia; reflexivity). apply le_INR. lia. }
  set (s := PI / n) in *. assert (S0 : 0 < s) by (unfold s; apply Rdiv_lt_0_compat; lra). assert (Ns : n * s = PI) by (unfold s; field; lra). replace (k * PI / n) with (k * s) in F by (unfold s; field; lra).
  assert (Least : sin s <= sin (k * s)). { apply sin_least; [lra | nra|]. split; [nra|]. nra. }
  assert (Pos : 0 <= sin s) by (apply sin_ge_0; [lra | nra]).
  assert (Sq : (2 * fc_radius c * sin s) * (2 * fc_radius c * sin s) <= (2 * fc_radius c * sin (k * s)) * (2 * fc_radius c * sin (k * s))). { assert (0 <= 2 * fc_radius c * sin s) by (apply Rmult_le_pos; lra). assert (2 * fc_radius c * sin s <= 2 * fc_radius c * sin (k * s)) by (apply Rmult_le_compat_l; lra). apply Rmult_le_compat; assumption. }
  intros O. refine (apart_boxes (b_box b) (b_box a) _ F _ _ _ _); [lra | lra | |].
  - set (x := wide (sides (b_box b)) + wide (sides (b_box a))). set (y := high (sides (b_box b)) + high (sides (b_box a))). assert (X : x * x <= 2 * w * (2 * w)) by (apply Rmult_le_compat; unfold x; lra). assert (Y : y * y <= 2 * h * (2 * h)) by (apply Rmult_le_compat; unfold y; lra). nra.
  - destruct O as (p & O1 & O2). now exists p.
Qed.
Print Assumptions circular_layout_apart.

(** The usual circle is too small for 41 nodes of the usual size: neighbours overlap. *)
Theorem circular_layout_room_refuted vs es : NoDup (map v_id vs) -> Forall (fun v => v_size v = None) vs -> (41 <= length vs)%nat ->
  exists a b, nth_error (bodies (circular_layout default_force_config vs es)) 0 = Some a /\ nth_error (bodies (circular_layout default_force_config vs es)) 1 = Some b /\ overlap (b_box b) (b_box a).
Proof.
  intros N Z L. set (l := circular_layout default_force_config vs es). assert (B : bodies l = circle default_force_config (2 * PI / INR (length vs)) 0 vs) by (apply circular_bodies; exact N).
  assert (Len : length (bodies l) = length vs) by (rewrite B, <- (map_length b_id), circle_ids, map_length; reflexivity).
  destruct (nth_error (bodies l) 0) as [a|] eqn:A; [|apply nth_error_None in A; lia]. destruct (nth_error (bodies l) 1) as [b|] eqn:B1; [|apply nth_error_None in B1; lia]. exists a, b. split; [reflexivity|]. split; [reflexivity|].
  pose proof (circular_layout_distances default_force_config vs es 0 1 a b N ltac:(cbn; lra) ltac:(lia) A B1) as F. change (INR (1 - 0)) with 1 in F. rewrite Rmult_1_l in F. change (fc_radius default_force_config) with 200 in F. destruct (circular_nth _ vs es 0 a N A) as (_ & v & V & ->). destruct (circular_nth _ vs es 1 b N B1) as (_ & w & W & ->). rewrite Forall_forall in Z.
  pose proof (Z v (nth_error_In _ _ V)) as Zv. pose proof (Z w (nth_error_In _ _ W)) as Zw.
  assert (Hn : 41 <= INR (length vs)) by (replace 41 with (INR 41) by (cbn; lra); apply le_INR; lia). pose proof PI_RGT_0 as Pi. pose proof PI_4 as Pi4. assert (S0 : 0 < PI / INR (length vs)) by (apply Rdiv_lt_0_compat; lra). pose proof (sin_lt_x _ S0) as Sx.
  assert (Q : PI / INR (length vs) <= 4 / 41). { apply (Rmult_le_reg_r (INR (length vs))); [lra|]. unfold Rdiv at 1. rewrite Rmult_assoc, Rinv_l, Rmult_1_r by lra. lra. }
  refine (near_boxes _ _ _ 80 40 F _ _ _ _); [unfold vert_body, around; cbn; now rewrite Zw | unfold vert_body, around; cbn; now rewrite Zv | lra | lra].
Qed.
Print Assumptions circular_layout_room_refuted.

(** ** The radial layout of a tree *)
Lemma ids_cons t : t_id t :: tl (tree_ids t) = tree_ids t.
Proof. unfold tree_ids. rewrite nodes_eq. reflexivity. Qed.
Lemma radial_bodies c t : NoDup (tree_ids t) -> bodies (radial_layout c t) = tree_body c t (Spot 0 0) :: radial_children c t (Spot 0 0) (rc_level c) 0 (2 * PI).
Proof. intros N. unfold radial_layout. cbn [bodies]. apply table_nodup. cbn [map]. rewrite radial_ids. cbn [b_id tree_body]. now rewrite ids_cons. Qed.
Lemma balloon_bodies c t : NoDup (tree_ids t) -> bodies (balloon_layout c t) = tree_body c t (Spot 0 0) :: balloon_children c t (Spot 0 0) (rc_level c).
Proof. intros N. unfold balloon_layout. cbn [bodies]. apply table_nodup. cbn [map]. rewrite balloon_ids. cbn [b_id tree_body]. now rewrite ids_cons. Qed.
Lemma sized_all c t l : map (fun b => (b_id b, sides (b_box b))) l = map (fun s => (t_id s, tree_size c s)) (tl (nodes_of t)) ->
  Forall2 (fun s b => b_id b = t_id s /\ sized (Dims (rc_width c) (rc_height c)) (t_size s) b) (nodes_of t) (tree_body c t (Spot 0 0) :: l).
Proof.
  intros E. refine (forall2_maps (fun s => (t_id s, tree_size c s)) (fun b => (b_id b, sides (b_box b))) _ (tree_sized c) _ _ _). cbn [map]. rewrite E. now rewrite (nodes_eq t).
Qed.
(** Every node of the tree is there once, with its size; the root is in the middle; the edges are those of the tree. *)
Theorem radial_layout_nodes c t : NoDup (tree_ids t) ->
  let l := radial_layout c t in
  Forall2 (fun s b => b_id b = t_id s /\ sized (Dims (rc_width c) (rc_height c)) (t_size s) b) (nodes_of t) (bodies l) /\
  sits_at (bodies l) (t_id t) (Spot 0 0) /\
  Permutation (map (fun d => (d_from d, d_to d)) (lines l)) (tree_edges t).
Proof.
  intros N. cbv zeta. rewrite (radial_bodies c t N). split; [|split].
  - apply sized_all. apply radial_sizes.
  - exists (tree_body c t (Spot 0 0)). split; [now left|]. split; [reflexivity | apply mid_body].
  - apply tree_lines_perm.
Qed.
Print Assumptions radial_layout_nodes.

(** No two nodes of any tree are at the same place. *)
Theorem radial_layout_distinct c t : 0 < rc_level c -> NoDup (tree_ids t) -> NoDup (map (fun b => middle (b_box b)) (bodies (radial_layout c t))).
Proof.
  intros L N. rewrite (radial_bodies c t N). pose proof PI_RGT_0 as Pi. cbn [map]. rewrite mid_body. constructor.
  - intros I. apply in_map_iff in I. destruct I as (b & E & I). replace 0 with (PI - 2 * PI / 2) in I at 3 by field. refine (radial_away c L t (Spot 0 0) (rc_level c) PI (2 * PI) 0 b L _ _ _ I _); [lra | lra | left; split; [reflexivity | lra]|].
    rewrite E. unfold spot_add, spot_sub. cbn [x_of y_of]. f_equal; ring.
  - apply radial_distinct; lra.
Qed.
Print Assumptions radial_layout_distinct.

(** A node has the distance to its parent that the level says. *)
Theorem radial_layout_levels c t k p s : 0 < rc_level c -> NoDup (tree_ids t) -> below t k p -> In s (t_children p) ->
  exists a b, sits_at (bodies (radial_layout c t)) (t_id p) a /\ sits_at (bodies (radial_layout c t)) (t_id s) b /\ far b a (INR (S k) * rc_level c).
Proof.
  intros L N B I. rewrite (radial_bodies c t N). destruct (radial_levels c L t k p s B I (Spot 0 0) (rc_level c) 0 (2 * PI) L) as (a & b & A & Bb & F). exists a, b. split; [|split].
  - destruct A as [(_ & -> & ->) | A]; [|now apply sits_more]. exists (tree_body c t (Spot 0 0)). split; [now left|]. split; [reflexivity | apply mid_body].
  - now apply sits_more.
  - rewrite S_INR. replace ((INR k + 1) * rc_level c) with (rc_level c + INR k * rc_level c) by ring. exact F.
Qed.
Print Assumptions radial_layout_levels.

(** The circles are not concentric: a grandchild may be three levels away from the root. *)
Definition chain : rtree := RTree 0 None [RTree 1 None [RTree 2 None []]].
Lemma chain_at : bodies (radial_layout default_ring_config chain) = [tree_body default_ring_config chain (Spot 0 0); tree_body default_ring_config (RTree 1 None []) (Spot (-80) 0); tree_body default_ring_config (RTree 2 None []) (Spot (-240) 0)].
Proof.
  rewrite radial_bodies by (repeat constructor; cbn; intuition lia). unfold chain. cbn [radial_children length app]. change (INR 1) with 1. change (INR 0) with 0. unfold on_circle. cbn [x_of y_of rc_level default_ring_config].
  repeat match goal with |- context [cos ?a] => tryif constr_eq a PI then fail else replace a with PI by field end. rewrite cos_PI, sin_PI. unfold tree_body, tree_size. cbn [t_id t_size]. repeat f_equal; ring.
Qed.
Theorem radial_layout_concentric_refuted : exists t k s, NoDup (tree_ids t) /\ below t k s /\ ~ exists b, sits_at (bodies (radial_layout default_ring_config t)) (t_id s) b /\ far b (Spot 0 0) (INR k * rc_level default_ring_config).
Proof.
  exists chain, 2%nat, (RTree 2 None []). split; [repeat constructor; cbn; intuition lia|]. split; [eapply Down; [now left|]; eapply Down; [now left | apply Here]|]. intros (b & (x & I & Ex & M) & F). rewrite chain_at in I.
  destruct I as [<- | [<- | [<- | []]]]; try discriminate. rewrite mid_body in M. subst b. destruct F as [_ F]. cbn [x_of y_of rc_level default_ring_config INR] in F. lra.
Qed.
Print Assumptions radial_layout_concentric_refuted.
(** Nodes of the usual size overlap at the usual distance. *)
Theorem radial_layout_overlap_refuted : exists t a b, NoDup (tree_ids t) /\ In a (bodies (radial_layout default_ring_config t)) /\ In b (bodies (radial_layout default_ring_config t)) /\ b_id a <> b_id b /\ overlap (b_box a) (b_box b).
Proof.
  exists chain. rewrite chain_at. eexists _, _. split; [repeat constructor; cbn; intuition lia|]. split; [left; reflexivity|]. split; [right; left; reflexivity|]. split; [discriminate|]. exists (Spot (-40) 0). unfold interior, tree_body, around, tree_size, chain. cbn [t_size t_id b_box corner sides wide high x_of y_of rc_width rc_height default_ring_config]. repeat split; cbn [corner sides wide high x_of y_of]; lra.
Qed.
Print Assumptions radial_layout_overlap_refuted.

(** ** The balloon layout of a tree *)
Theorem balloon_layout_nodes c t : NoDup (tree_ids t) -> 0 <= rc_level c ->
  let l := balloon_layout c t in
  Forall2 (fun s b => b_id b = t_id s /\ sized (Dims (rc_width c) (rc_height c)) (t_size s) b) (nodes_of t) (bodies l) /\
  sits_at (bodies l) (t_id t) (Spot 0 0) /\
  (forall b, In b (bodies l) -> exists d, d <= 5 / 2 * rc_level c /\ far (middle (b_box b)) (Spot 0 0) d) /\
  Permutation (map (fun d => (d_from d, d_to d)) (lines l)) (tree_edges t).
Proof.
  intros N L. cbv zeta. rewrite (balloon_bodies c t N). split; [|split; [|split]].
  - apply sized_all. apply balloon_sizes.
  - exists (tree_body c t (Spot 0 0)). split; [now left|]. split; [reflexivity | apply mid_body].
  - intros b [<- | I]; [exists 0; split; [lra|]; rewrite mid_body; split; [lra | cbn; ring]|]. exists (distance_to (middle (b_box b)) (Spot 0 0)). split; [now apply balloon_near with (c := c) (t := t) | apply distance_far].
  - apply tree_lines_perm.
Qed.
Print Assumptions balloon_layout_nodes.
Theorem balloon_layout_levels c t k p s : 0 <= rc_level c -> NoDup (tree_ids t) -> below t k p -> In s (t_children p) ->
  exists a b, sits_at (bodies (balloon_layout c t)) (t_id p) a /\ sits_at (bodies (balloon_layout c t)) (t_id s) b /\ far b a (rc_level c * (3 / 5) ^ k).
Proof.
  intros L N B I. rewrite (balloon_bodies c t N). destruct (balloon_levels c t k p s B I (Spot 0 0) (rc_level c) L) as (a & b & A & Bb & F). exists a, b. split; [|split; [now apply sits_more | exact F]].
  destruct A as [(_ & -> & ->) | A]; [|now apply sits_more]. exists (tree_body c t (Spot 0 0)). split; [now left|]. split; [reflexivity | apply mid_body].
Qed.
Print Assumptions balloon_layout_levels.
Theorem balloon_layout_siblings c t k p i j s s' : 0 <= rc_level c -> NoDup (tree_ids t) -> below t k p -> (i < j)%nat -> nth_error (t_children p) i = Some s -> nth_error (t_children p) j = Some s' ->
  exists a b, sits_at (bodies (balloon_layout c t)) (t_id s) a /\ sits_at (bodies (balloon_layout c t)) (t_id s') b /\
  far b a (2 * (rc_level c * (3 / 5) ^ k) * sin (INR (j - i) * PI / INR (length (t_children p)))).
Proof.
  intros L N B Lt E E'. rewrite (balloon_bodies c t N). destruct (balloon_siblings c t k p B i j s s' Lt E E' (Spot 0 0) (rc_level c) L) as (a & b & A & Bb & F). exists a, b. split; [now apply sits_more|]. split; [now apply sits_more | exact F].
Qed.
Print Assumptions balloon_layout_siblings.
(** The root and its first child overlap, whatever the tree, when sizes and distances are the usual ones. *)
Theorem balloon_layout_overlap_refuted id ci cc cs : NoDup (tree_ids (RTree id None (RTree ci None cc :: cs))) ->
  let l := bodies (balloon_layout default_ring_config (RTree id None (RTree ci None cc :: cs))) in
  exists a b, In a l /\ In b l /\ b_id a = id /\ b_id b = ci /\ overlap (b_box a) (b_box b).
Proof.
  intros N. cbv zeta. rewrite balloon_bodies by exact N. set (n := INR (length (RTree ci None cc :: cs))). eexists _, (tree_body default_ring_config (RTree ci None cc) (on_circle (Spot 0 0) 80 (INR 0 * (2 * PI / n)))). split; [left; reflexivity|]. split; [right; cbn [balloon_children]; left; reflexivity|]. split; [reflexivity|]. split; [reflexivity|].
  unfold on_circle. cbn [x_of y_of]. change (INR 0) with 0. rewrite Rmult_0_l, cos_0, sin_0. exists (Spot 40 0). unfold interior, tree_body, around, tree_size. cbn [t_size t_id b_box corner sides wide high x_of y_of rc_width rc_height default_ring_config]. repeat split; cbn [corner sides wide high x_of y_of]; lra.
Qed.
Print Assumptions balloon_layout_overlap_refuted.

(** ** The layouts by forces *)
Definition final c vs es := Nat.iter (fc_iterations c) (force_round c es) (first_spots (length vs) 0 (map v_id vs)).
Lemma force_bodies c vs es : NoDup (map v_id vs) -> bodies (force_layout c vs es) = map (fun vm => vert_body c (fst vm) (m_pos (snd vm))) (combine vs (final c vs es)).
Proof.
  intros N. destruct vs as [| v vs]; [reflexivity|]. unfold force_layout. cbv zeta. cbn [bodies]. fold (final c (v :: vs) es). apply table_nodup. rewrite map_map. cbn [b_id vert_body].
  rewrite (proj1 (combine_ids v_id m_id (v :: vs) (final c (v :: vs) es) ltac:(unfold final; rewrite rounds_ids, first_ids; reflexivity))). exact N.
Qed.
Lemma combine_sized c : forall vs ms, length vs = length ms -> Forall2 (fun v b => b_id b = v_id v /\ sized (Dims (fc_width c) (fc_height c)) (v_size v) b) vs (map (fun vm => vert_body c (fst vm) (m_pos (snd vm))) (combine vs ms)).
Proof.
  induction vs as [| v vs IH]; intros [| m ms] E; try discriminate; [constructor|]. cbn [combine map]. constructor; [|apply IH; now injection E]. split; [reflexivity|]. unfold sized. cbn. destruct (v_size v); [now left | now right].
Qed.
(** Every node is there once and with its size, not farther from the origin than its start and its greatest speed allow; every
    edge with two known ends is drawn from middle to middle. *)
Theorem force_layout_bounded c vs es : NoDup (map v_id vs) -> 0 <= fc_velocity c ->
  let l := force_layout c vs es in
  Forall2 (fun v b => b_id b = v_id v /\ sized (Dims (fc_width c) (fc_height c)) (v_size v) b) vs (bodies l) /\
  Forall (fun b => exists d, d <= 100 + INR (fc_iterations c) * fc_velocity c /\ far (middle (b_box b)) (Spot 0 0) d) (bodies l) /\
  drawing (bodies l) (map (fun a => (a_from a, a_to a)) es) (lines l).
Proof.
  intros N V. cbv zeta. split; [|split].
  - rewrite (force_bodies c vs es N). apply combine_sized. unfold final. rewrite <- (map_length m_id), rounds_ids, first_ids, map_length. reflexivity.
  - rewrite (force_bodies c vs es N). apply Forall_forall. intros b I. apply in_map_iff in I. destruct I as ([v m] & <- & I). cbn [b_box vert_body fst snd]. rewrite middle_around. apply in_combine_r in I. exists (distance_to (m_pos m) (Spot 0 0)). split; [|apply distance_far].
    pose proof (rounds_inside c es V (fc_iterations c) _ 100 (first_inside (length vs) (map v_id vs) 0)) as F. rewrite Forall_forall in F. exact (F m I).
  - destruct vs as [| v vs]; [cbn; clear; induction es as [| a es IH]; [constructor | apply DrawLess; [left; intros [] | exact IH]]|]. apply joined_drawing.
Qed.
Print Assumptions force_layout_bounded.
Theorem organic_layout_bounded c vs es : NoDup (map v_id vs) -> 0 <= fc_velocity c ->
  let l := organic_layout c vs es in
  Forall2 (fun v b => b_id b = v_id v /\ sized (Dims (fc_width c) (fc_height c)) (v_size v) b) vs (bodies l) /\
  Forall (fun b => exists d, d <= 100 + INR (fc_iterations c) * fc_velocity c /\ far (middle (b_box b)) (Spot 0 0) d) (bodies l) /\
  drawing (bodies l) (map (fun a => (a_from a, a_to a)) es) (lines l).
Proof. intros N V. exact (force_layout_bounded (ForceConfig (fc_width c) (fc_height c) (fc_radius c) (fc_iterations c) (fc_spring c * (1 / 2)) (fc_repulsion c * (3 / 2)) (95 / 100) (fc_velocity c) (fc_length c)) vs es N V). Qed.
Print Assumptions organic_layout_bounded.

(** The engine keeps the centre of the nodes. *)
Lemma engine_bodies e ideal gs es p : NoDup (map g_id gs) -> gs <> [] -> force_engine e ideal gs es = Some p ->
  exists l, Nat.iter (e_iterations e) (engine_round e ideal es) (Some (first_spots (length gs) 0 (map g_id gs))) = Some l /\
  map m_id l = map g_id gs /\ bodies p = map (fun gm => Body (g_id (fst gm)) (around (m_pos (snd gm)) (g_size (fst gm)))) (combine gs l) /\ drawing (bodies p) es (lines p).
Proof.
  intros N Ne E. destruct gs as [| g gs]; [contradiction|]. unfold force_engine in E. destruct (Nat.iter _ _ _) as [l|] eqn:I; [|discriminate]. exists l. split; [reflexivity|].
  assert (Ids : map m_id l = map g_id (g :: gs)).
  { destruct (engine_sums x_of ltac:(reflexivity) ltac:(reflexivity) ltac:(reflexivity) e ideal es (e_iterations e) _ l ltac:(rewrite first_ids; exact N) (first_vels x_of _ eq_refl _ _) I) as (X & _). rewrite X. apply first_ids. }
  split; [exact Ids|]. cbn [option_map] in E. injection E as <-. cbn [bodies lines]. split; [|apply joined_drawing]. apply table_nodup. rewrite map_map. cbn [b_id]. rewrite (proj1 (combine_ids g_id m_id (g :: gs) l (eq_sym Ids))). exact N.
Qed.
Lemma combine_middles (k : spot -> R) : forall gs l, length gs = length l -> map (fun b => k (middle (b_box b))) (map (fun gm => Body (g_id (fst gm)) (around (m_pos (snd gm)) (g_size (fst gm)))) (combine gs l)) = map (fun m => k (m_pos m)) l.
Proof. induction gs as [| g gs IH]; intros [| m l] E; try discriminate; [reflexivity|]. cbn [combine map]. cbn [b_box fst snd]. rewrite middle_around. f_equal. apply IH. now injection E. Qed.
Theorem force_engine_centred e ideal gs es p : NoDup (map g_id gs) -> (2 <= length gs)%nat -> force_engine e ideal gs es = Some p ->
  Forall2 (fun g b => b_id b = g_id g /\ sides (b_box b) = g_size g) gs (bodies p) /\
  sum (map (fun b => x_of (middle (b_box b))) (bodies p)) = 0 /\ sum (map (fun b => y_of (middle (b_box b))) (bodies p)) = 0 /\
  drawing (bodies p) es (lines p).
Proof.
  intros N L E. destruct (engine_bodies e ideal gs es p N ltac:(destruct gs; [cbn in L; lia | discriminate]) E) as (l & I & Ids & B & D).
  assert (Len : length gs = length l) by (rewrite <- (map_length m_id), Ids, map_length; reflexivity). split; [|split; [|split; [|exact D]]].
  - rewrite B. clear - Len. revert l Len. induction gs as [| g gs IH]; intros [| m l] E; try discriminate; [constructor|]. cbn [combine map]. constructor; [split; reflexivity|]. apply IH. now injection E.
  - rewrite B, (combine_middles x_of gs l Len). destruct (engine_sums x_of ltac:(reflexivity) ltac:(reflexivity) ltac:(reflexivity) e ideal es (e_iterations e) _ l ltac:(rewrite first_ids; exact N) (first_vels x_of _ eq_refl _ _) I) as (_ & _ & X). rewrite X. apply wheel_sum; [exact L | now rewrite map_length].
  - rewrite B, (combine_middles y_of gs l Len). destruct (engine_sums y_of ltac:(reflexivity) ltac:(reflexivity) ltac:(reflexivity) e ideal es (e_iterations e) _ l ltac:(rewrite first_ids; exact N) (first_vels y_of _ eq_refl _ _) I) as (_ & _ & X). rewrite X. apply wheel_sum; [exact L | now rewrite map_length].
Qed.
Print Assumptions force_engine_centred.

(** An edge from a node to itself is divided by its length, zero: the engine has no result. *)
Lemma iter_none e ideal es k : Nat.iter k (engine_round e ideal es) None = None.
Proof. induction k as [| k IH]; [reflexivity|]. cbn [Nat.iter nat_rect] in *. unfold Nat.iter in IH. now rewrite IH. Qed.
Lemma iter_inside {A} (f : A -> A) k x : Nat.iter (S k) f x = Nat.iter k f (f x).
Proof. induction k as [| k IH]; [reflexivity|]. cbn [Nat.iter nat_rect] in *. unfold Nat.iter in *. now rewrite <- IH. Qed.
Theorem force_engine_loop_refuted e ideal gs es id : (0 < e_iterations e)%nat -> In id (map g_id gs) -> In (id, id) es -> force_engine e ideal gs es = None.
Proof.
  intros K I J. assert (Z : forall l es, fold_left (edge_force e ideal l) es None = None) by (intros l; induction es0 as [| a r IH]; [reflexivity | exact IH]).
  assert (Round : engine_round e ideal es (Some (first_spots (length gs) 0 (map g_id gs))) = None).
  { cbn [engine_round]. set (l := first_spots _ _ _). assert (M : exists p, mover_at l id = Some p). { unfold mover_at. destruct (find _ l) as [m|] eqn:F; [now exists (m_pos m)|]. exfalso. rewrite <- (first_ids (length gs) (map g_id gs) 0) in I. fold l in I. apply in_map_iff in I. destruct I as (m & E & I). pose proof (find_none _ _ F m I) as H. cbv beta in H. rewrite E, Nat.eqb_refl in H. discriminate. }
    destruct M as (p & M). apply in_split in J. destruct J as (u & v & ->). rewrite fold_left_app. cbn [fold_left]. destruct (fold_left (edge_force e ideal l) u _) as [f|]; cbn [edge_force]; [|rewrite Z; reflexivity].
    cbn [fst snd]. rewrite M. cbv zeta. destruct (Req_EM_T (distance_to p p) 0) as [_ | D]; [rewrite Z; reflexivity|]. exfalso. apply D. apply far_distance. split; [lra | ring]. }
  unfold force_engine. destruct gs as [| g gs]; [destruct I|]. destruct (e_iterations e) as [| k]; [lia|]. rewrite iter_inside, Round, iter_none. reflexivity.
Qed.
Print Assumptions force_engine_loop_refuted.
(** Without edges from a node to itself, the first round always has a result. *)
Lemma first_nth n : forall ids i k id, nth_error ids k = Some id -> nth_error (first_spots n i ids) k = Some (Mover id (Spot (100 * cos (2 * PI * INR (i + k) / INR n)) (100 * sin (2 * PI * INR (i + k) / INR n))) (Spot 0 0)).
Proof. induction ids as [| a ids IH]; intros i [| k] id E; try discriminate; [injection E as <-; cbn; rewrite Nat.add_0_r; reflexivity|]. cbn [first_spots nth_error]. rewrite (IH (S i) k id E). now rewrite Nat.add_succ_r. Qed.
Lemma found_at n ids id p : NoDup ids -> mover_at (first_spots n 0 ids) id = Some p -> exists k, nth_error ids k = Some id /\ p = on_circle (Spot 0 0) 100 (2 * PI * INR k / INR n).
Proof.
  intros N. unfold mover_at. destruct (find _ _) as [m|] eqn:F; [|discriminate]. intros E. injection E as <-. apply find_some in F. destruct F as [I E]. apply Nat.eqb_eq in E. subst id. apply In_nth_error in I. destruct I as (k & K).
  assert (J : nth_error ids k = Some (m_id m)). { pose proof (map_nth_error m_id _ _ K) as H. rewrite first_ids in H. exact H. } exists k. split; [exact J|]. rewrite (first_nth n ids 0 k _ J) in K. injection K as <-. cbn [m_pos]. unfold on_circle. cbn [x_of y_of]. f_equal; ring.
Qed.
Theorem force_engine_start e ideal gs es : NoDup (map g_id gs) -> (e_iterations e <= 1)%nat -> (forall a b, In (a, b) es -> a <> b) -> force_engine e ideal gs es <> None.
Proof.
  intros N K Ne. unfold force_engine. destruct gs as [| g gs]; [discriminate|]. set (ids := map g_id (g :: gs)) in *. set (l := first_spots _ 0 ids).
  assert (Round : engine_round e ideal es (Some l) <> None).
  { cbn [engine_round]. generalize (repel_all (e_repulsion e) l no_force). clear K. induction es as [| [a b] es IH]; intros f; [discriminate|]. cbn [fold_left edge_force fst snd]. assert (Ne' : forall a b, In (a, b) es -> a <> b) by (intros x y I; apply Ne; now right). specialize (IH Ne').
    destruct (mover_at l a) as [p|] eqn:A; [destruct (mover_at l b) as [q|] eqn:B|]; try apply IH. cbv zeta. destruct (Req_EM_T (distance_to p q) 0) as [D | _]; [|apply IH]. exfalso. unfold l in A, B.
    apply (found_at _ ids a p N) in A. apply (found_at _ ids b q N) in B. destruct A as (i & Ai & ->). destruct B as (j & Bj & ->). assert (a <> b) by (apply Ne; now left).
    assert (Hn : length (g :: gs) = length ids) by (unfold ids; now rewrite map_length). rewrite Hn in D.
    assert (Away : forall i j, (i < j < length ids)%nat -> distance_to (on_circle (Spot 0 0) 100 (2 * PI * INR j / INR (length ids))) (on_circle (Spot 0 0) 100 (2 * PI * INR i / INR (length ids))) <> 0).
    { clear. intros i j L. pose proof PI_RGT_0 as Pi. assert (Nn : 0 < INR (length ids)) by (apply lt_0_INR; lia). assert (E : (2 * PI * INR j / INR (length ids) - 2 * PI * INR i / INR (length ids)) / 2 = INR (j - i) * (PI / INR (length ids))) by (rewrite minus_INR by lia; field; lra).
      assert (S0 : 0 < PI / INR (length ids)) by (apply Rdiv_lt_0_compat; lra). assert (Ns : INR (length ids) * (PI / INR (length ids)) = PI) by (field; lra). assert (K1 : 1 <= INR (j - i)) by (replace 1 with (INR 1) by reflexivity; apply le_INR; lia). assert (K2 : INR (j - i) + 1 <= INR (length ids)) by (rewrite <- S_INR; apply le_INR; lia).
      assert (H0 : 0 < INR (j - i) * (PI / INR (length ids)) < PI) by (split; nra). rewrite (far_distance _ _ _ (chord_far 100 (Spot 0 0) _ _ ltac:(lra) ltac:(rewrite E; lra))). rewrite E. pose proof (sin_gt_0 _ (proj1 H0) (proj2 H0)). lra. }
    pose proof (nth_lt _ _ _ Ai). pose proof (nth_lt _ _ _ Bj). destruct (Nat.lt_trichotomy i j) as [L | [-> | L]].
    - apply (Away i j ltac:(lia)). refine (eq_trans _ D). unfold distance_to. cbv zeta. f_equal. ring.
    - congruence.
    - apply (Away j i ltac:(lia)). exact D. }
  destruct (e_iterations e) as [| [| k]]; [discriminate | | lia]. cbn [Nat.iter nat_rect]. destruct (engine_round e ideal es (Some l)); [discriminate | contradiction].
Qed.
Print Assumptions force_engine_start.

(** Cases that meet the hypotheses *)
Example circle_of_three : bodies (circular_layout default_force_config [Vert 0 None; Vert 1 (Some (Dims 10 10)); Vert 2 None] [Arc 0 1 1]) <> [].
Proof. rewrite circular_bodies by (repeat constructor; cbn; intuition lia). discriminate. Qed.
Example radial_chain : NoDup (map (fun b => middle (b_box b)) (bodies (radial_layout default_ring_config chain))).
Proof. apply radial_layout_distinct; [cbn; lra | repeat constructor; cbn; intuition lia]. Qed.
Example radial_chain_level : exists a b, sits_at (bodies (radial_layout default_ring_config chain)) 1 a /\ sits_at (bodies (radial_layout default_ring_config chain)) 2 b /\ far b a (INR 2 * 80).
Proof. apply (radial_layout_levels default_ring_config chain 1 (RTree 1 None [RTree 2 None []]) (RTree 2 None [])); [cbn; lra | repeat constructor; cbn; intuition lia | eapply Down; [now left | apply Here] | now left]. Qed.
Example balloon_chain_level : exists a b, sits_at (bodies (balloon_layout default_ring_config chain)) 1 a /\ sits_at (bodies (balloon_layout default_ring_config chain)) 2 b /\ far b a (80 * (3 / 5) ^ 1).
Proof. apply (balloon_layout_levels default_ring_config chain 1 (RTree 1 None [RTree 2 None []]) (RTree 2 None [])); [cbn; lra | repeat constructor; cbn; intuition lia | eapply Down; [now left | apply Here] | now left]. Qed.
Example four_apart a b : let l := circular_layout default_force_config [Vert 0 None; Vert 1 None] [] in
  nth_error (bodies l) 0 = Some a -> nth_error (bodies l) 1 = Some b -> ~ overlap (b_box a) (b_box b).
Proof.
  intros l A B. refine (circular_layout_apart default_force_config [Vert 0 None; Vert 1 None] [] 80 40 0 1 a b _ _ _ _ _ A B); [repeat constructor; cbn; intuition lia | cbn; lra | | |lia].
  - rewrite circular_bodies by (repeat constructor; cbn; intuition lia). repeat constructor; cbn; lra.
  - cbn [length]. replace (INR 2) with 2 by (cbn; lra). rewrite sin_PI2. cbn [fc_radius default_force_config]. lra.
Qed.
Example engine_two : exists p, force_engine (Engine 1 (1 / 10) 1000 (9 / 10)) 100 [Thing 0 (Dims 10 10); Thing 1 (Dims 20 20)] [(0, 1)]%nat = Some p /\
  sum (map (fun b => x_of (middle (b_box b))) (bodies p)) = 0.
Proof.
  assert (N : NoDup (map g_id [Thing 0 (Dims 10 10); Thing 1 (Dims 20 20)])) by (repeat constructor; cbn; intuition lia).
  pose proof (force_engine_start (Engine 1 (1 / 10) 1000 (9 / 10)) 100 [Thing 0 (Dims 10 10); Thing 1 (Dims 20 20)] [(0, 1)]%nat N ltac:(cbn; lia) ltac:(intros a b [E | []]; injection E as <- <-; discriminate)) as H.
  destruct (force_engine _ _ _ _) as [p|] eqn:E; [|contradiction]. exists p. split; [reflexivity|]. apply (force_engine_centred _ _ _ _ _ N ltac:(cbn; lia) E).
Qed.
