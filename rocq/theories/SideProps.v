(** Theorems about the directions of the hierarchical engine. *)
Require Import QArith Lqa.
From Verif Require Import Base GraphModel GraphSpec GeoModel GeoSpec GeoProofs SideModel SideSpec SideProofs.
From Verif Require GeoProps.
Open Scope Q_scope.

Lemma drawn_engine d fuel c items es : directed_engine d fuel c items es = directed_engine (drawn_as d) fuel c items es.
Proof. destruct d; reflexivity. Qed.
Lemma items_thin fuel items es hs : Forall (fun n => 0 <= sh (i_size n)) items -> build_hierarchy fuel items es = Some hs -> thin (flat_map h_items hs).
Proof.
  intros Hp Eh. apply Forall_forall. intros [i s] Hi. cbn [snd]. apply in_flat_map in Hi. destruct Hi as (h & Hh & Hi). unfold build_hierarchy in Eh. apply traverse_inv in Eh.
  assert (X : exists id, build_node fuel items es id = Some h) by (clear -Eh Hh; induction Eh as [| x y l m E _ IH]; [contradiction|]; destruct Hh as [-> | Hh]; [now exists (i_id x) | now apply IH]).
  destruct X as (id & X). destruct (build_node_items fuel items es id h X i s Hi) as (n & Hn & _ & <-). rewrite Forall_forall in Hp. now apply Hp.
Qed.
Lemma down_order fuel c items es l a b : 0 <= lc_vertical c -> Forall (fun n => 0 <= sh (i_size n)) items -> directed_engine TopDown fuel c items es = Some l ->
  In a (l_nodes l) -> In b (l_nodes l) -> In (n_id a, n_id b) es -> after TopDown c (n_rect a) (n_rect b).
Proof.
  intros Hv Hp E A B Ie. destruct items as [| i r]; [injection E as <-; destruct A|]. unfold directed_engine in E. set (items := i :: r) in *. destruct (build_hierarchy fuel items es) as [hs|] eqn:Eh; [|discriminate]. injection E as <-. rewrite route_nodes in A, B. cbn [placed_in] in A, B.
  destruct (top_down_all_spaced c Hv hs (lc_margin c) (items_thin fuel items es hs Hp Eh)) as (_ & _ & Bt). pose proof (all_follows c es items fuel _ hs Eh (lc_margin c)) as F.
  destruct (last_counts _ _ A) as (p & s & Ea & _). destruct (last_counts _ _ B) as (q & t & Eb & N). destruct (last_later _ p s q t a b Ea (F p a s Ea (n_id b) Ie) Eb N) as (l1 & l2 & l3 & El). exact (Bt _ _ _ _ _ El).
Qed.
Lemma turned_thick items : Forall (fun n => 0 <= sw (i_size n)) items -> Forall (fun n => 0 <= sh (i_size n)) (map turn_item items).
Proof. intros F. apply Forall_map. eapply Forall_impl; [|exact F]. intros n H. exact H. Qed.

(** The node an edge leads to is drawn below the other one, or to the right of it, with the spacing between them; so it is in
    every graph, even if a node is reached in many ways. *)
Theorem directed_children_after_partial d fuel c items es l a b : 0 <= room d c -> Forall (fun n => 0 <= thick d (i_size n)) items -> directed_engine d fuel c items es = Some l ->
  In a (l_nodes l) -> In b (l_nodes l) -> In (n_id a, n_id b) es -> after (drawn_as d) c (n_rect a) (n_rect b).
Proof.
  rewrite drawn_engine. assert (D : drawn_as d = TopDown \/ drawn_as d = LeftRight) by (destruct d; [now left | now left | now right | now right]). unfold room, thick. destruct D as [-> | ->]; [apply down_order|].
  intros Hv Hp E A B I. destruct (engine_turn _ _ _ _ _ E) as (m & Em & Nm). rewrite Nm in A, B. apply in_map_iff in A, B. destruct A as (a' & <- & A). destruct B as (b' & <- & B). exact (down_order fuel (turn_config c) (map turn_item items) es m a' b' Hv (turned_thick items Hp) Em A B I).
Qed.
Print Assumptions directed_children_after_partial.

(** The directions from below and from the right are never drawn. *)
Theorem directed_reversed_refuted d fuel c items es l a b : d = BottomUp \/ d = RightLeft -> 0 < room d c -> Forall (fun n => 0 < thick d (i_size n)) items -> directed_engine d fuel c items es = Some l ->
  In a (l_nodes l) -> In b (l_nodes l) -> In (n_id a, n_id b) es -> 0 <= thick d (extent (n_rect a)) -> 0 <= thick d (extent (n_rect b)) -> ~ after d c (n_rect a) (n_rect b).
Proof.
  intros D Hr Hp E A B I Ta Tb. assert (W : Forall (fun n => 0 <= thick d (i_size n)) items) by (eapply Forall_impl; [|exact Hp]; intros n H; cbv beta in *; lra). pose proof (directed_children_after_partial d fuel c items es l a b ltac:(lra) W E A B I) as X. destruct D as [-> | ->]; cbn [drawn_as after] in *; unfold room, thick in *; cbn [drawn_as] in *; lra.
Qed.
Print Assumptions directed_reversed_refuted.

Lemma overlap_turn a b : overlap (turn_rect a) (turn_rect b) -> overlap a b.
Proof. intros (p & I & J). exists (Point (py p) (px p)). unfold interior, min_x, max_x, min_y, max_y, turn_rect, turn_point, turn_size in *. cbn [origin extent px py sw sh] in *. tauto. Qed.
(** Nodes never overlap, whatever the direction and the graph. *)
Theorem directed_apart d fuel c items es l : 0 <= room d c -> Forall (fun n => 0 <= thick d (i_size n)) items -> directed_engine d fuel c items es = Some l ->
  forall a b, In a (l_nodes l) -> In b (l_nodes l) -> a <> b -> ~ overlap (n_rect a) (n_rect b).
Proof.
  rewrite drawn_engine. assert (D : drawn_as d = TopDown \/ drawn_as d = LeftRight) by (destruct d; [now left | now left | now right | now right]). unfold room, thick. destruct D as [-> | ->]; [intros Hv Hp E; exact (GeoProps.engine_apart fuel c items es l Hv Hp E)|].
  intros Hv Hp E a b A B N O. destruct (engine_turn _ _ _ _ _ E) as (m & Em & Nm). rewrite Nm in A, B. apply in_map_iff in A, B. destruct A as (a' & <- & A). destruct B as (b' & <- & B).
  refine (GeoProps.engine_apart fuel (turn_config c) (map turn_item items) es m Hv (turned_thick items Hp) Em a' b' A B _ _); [now intros -> | now apply overlap_turn].
Qed.
Print Assumptions directed_apart.

(** In a graph without closed walks exactly the given nodes are placed. *)
Theorem directed_complete_partial d c items es : 0 <= room d c -> let g := Graph (map i_id items) es true in closed g -> (forall a b, step g a b -> ~ walk g b a) ->
  exists depth, forall fuel, (depth <= fuel)%nat -> exists l, directed_engine d fuel c items es = Some l /\ NoDup (map n_id (l_nodes l)) /\ forall x, In x (map n_id (l_nodes l)) <-> In x (map i_id items).
Proof.
  assert (D : drawn_as d = TopDown \/ drawn_as d = LeftRight) by (destruct d; [now left | now left | now right | now right]). unfold room. intros Hv. cbv zeta. intros Hc Ha. assert (Same : map i_id (map turn_item items) = map i_id items) by (rewrite map_map; reflexivity). destruct D as [E | E]; rewrite E in Hv.
  - destruct (GeoProps.engine_complete_partial c items es Hv Hc Ha) as (k & K). exists k. intros fuel L. destruct (K fuel L) as (l & El & R). exists l. split; [|exact R]. rewrite drawn_engine, E. exact El.
  - rewrite <- Same in Hc, Ha. destruct (GeoProps.engine_complete_partial (turn_config c) (map turn_item items) es Hv Hc Ha) as (k & K). exists k. intros fuel L. destruct (K fuel L) as (m & El & R). destruct (engine_turn_back fuel c items es m El) as (l & Ell & Nl). exists l. split; [rewrite drawn_engine, E; exact Ell|].
    rewrite Nl, map_map. change (map (fun x => n_id (turn_node x)) (l_nodes m)) with (map n_id (l_nodes m)). rewrite <- Same. exact R.
Qed.
Print Assumptions directed_complete_partial.

Example directed_case : option_map (fun l => map (fun n => (n_id n, min_x (n_rect n), min_y (n_rect n))) (l_nodes l))
    (directed_engine RightLeft 5 default_layout_config [Item 0 (Size 100 50); Item 1 (Size 100 50); Item 2 (Size 100 50)] [(0, 1); (0, 2)]%nat) =
  Some [(0%nat, 20, 20); (1%nat, 160, 50); (2%nat, 300, 130)].
Proof. vm_compute. reflexivity. Qed.
(** A node that is reached in two ways is below both. *)
Example directed_diamond : option_map (fun l => map (fun n => (n_id n, min_y (n_rect n))) (l_nodes l))
    (directed_engine TopDown 5 default_layout_config [Item 0 (Size 10 10); Item 1 (Size 10 10); Item 2 (Size 10 10)] [(0, 2); (0, 1); (1, 2)]%nat) =
  Some [(0%nat, 20); (2%nat, 140); (1%nat, 100)].
Proof. vm_compute. reflexivity. Qed.
