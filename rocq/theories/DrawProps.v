(** Theorems about drawings of syntax trees (C209, C210). *)
From Verif Require Import Base Utf8 TreeModel GeoModel GeoSpec GeoProofs GeoProps HiModel TestProofs DrawModel DrawSpec DrawProofs.
Require Import NArith Nnat QArith Lqa Permutation.
Open Scope nat_scope.

(** C209: the drawing of a tree shows the whole tree and nothing else, and its names are the first
    numbers of the counter. *)
Theorem drawing_shows_tree : forall label t g v g', draw_green label t g = Some (v, g') ->
  shows label t v /\ g = ids v ++ g'.
Proof. exact draw_shows. Qed.
Print Assumptions drawing_shows_tree.

(** It takes one number for each part of the tree, no more. *)
Theorem drawing_exists : forall label t l g, in_order t l ->
  ((exists v g', draw_green label t g = Some (v, g')) <-> length l <= length g).
Proof.
  intros label t l g O. rewrite (order_weight _ _ O). split.
  - intros (v & g' & E). destruct (draw_shows _ _ _ _ _ E) as [S ->]. rewrite app_length, (shows_weight _ _ _ S). lia.
  - intros H. destruct (draw_enough label t g H) as (v & g' & E & _). now exists v, g'.
Qed.
Print Assumptions drawing_exists.

(** The red tree of the same green tree, wherever it stands, gives the same drawing. *)
Theorem drawing_red_same : forall label t, exists depth, forall fuel o g, depth <= fuel ->
  draw_red label fuel (red_of t o) g = draw_green label t g.
Proof. intros label t. exists (height t). intros fuel o g H. now apply draw_red_same. Qed.
Print Assumptions drawing_red_same.

(** C209: the counts of a drawing are those of the tree. *)
Theorem drawing_counts : forall label t v l, shows label t v -> in_order t l ->
  v_count v = length l /\
  v_leaves v = length (filter (fun s => match parts s with [] => true | _ => false end) l) /\
  (exists s, below (v_depth v - 1) t s) /\ (forall d s, below d t s -> d < v_depth v).
Proof.
  intros label t v l S O. destruct (shows_order _ _ _ _ S O) as [F G]. split; [|split].
  - rewrite count_nodes. symmetry. eapply forall2_len. exact F.
  - rewrite leaves_nodes. clear -G. induction G as [| s w l ws H _ IH]; [reflexivity|]. cbn [filter]. unfold v_is_leaf at 1.
    destruct (parts s), (v_children w); cbn [length] in H |- *; try discriminate; congruence.
  - now apply (depth_deepest label).
Qed.
Print Assumptions drawing_counts.

(** C210: whatever the threads do, and whatever each draws one after the other, no two drawn nodes have the
    same name, until the counter has gone round. *)
Theorem drawing_names_apart : forall label start schedule i j l m vs ws g h,
  (start < 2 ^ 64)%N -> (N.of_nat (length schedule) <= 2 ^ 64)%N -> i <> j ->
  draw_list label l (grants_of start schedule i) = Some (vs, g) ->
  draw_list label m (grants_of start schedule j) = Some (ws, h) ->
  NoDup (map node_name (flat_map ids vs ++ flat_map ids ws)).
Proof.
  intros label start schedule i j l m vs ws g h Hs Hl N E1 E2.
  destruct (draw_all_shows _ _ _ _ _ E1) as [_ G1]. destruct (draw_all_shows _ _ _ _ _ E2) as [_ G2].
  pose proof (grants_nodup schedule start i Hs Hl) as D1. pose proof (grants_nodup schedule start j Hs Hl) as D2.
  pose proof (fun x => grants_disjoint schedule start i j x Hs Hl N) as D. rewrite G1 in D1, D. rewrite G2 in D2, D.
  assert (A : forall (x y : list nat), NoDup (x ++ y) -> NoDup x).
  { intros x y. revert x. induction x as [| a x IH]; intros H; [constructor|]. inversion H as [| p q P Q]; subst.
    constructor; [intros I; apply P; apply in_or_app; now left | now apply IH]. }
  apply A in D1, D2. apply FinFun.Injective_map_NoDup.
  - intros a b H. unfold node_name in H. apply app_inv_head in H. now apply dec_inj.
  - clear - D1 D2 D. induction (flat_map ids vs) as [| a x IH]; [exact D2|]. inversion D1 as [| p q P Q]; subst. cbn [app] in *. constructor.
    + intros I. apply in_app_or in I. destruct I as [I | I]; [now apply P|]. apply (D a); [now left | apply in_or_app; now left].
    + apply IH; [exact Q|]. intros y Hy. apply D. now right.
Qed.
Print Assumptions drawing_names_apart.

(** C209: the picture a user sees by default, [visualize] of a tree: one box for each part, labelled by its
    kind and in the order of the text; no two boxes overlap; one line from each part to each of its own. *)
Theorem default_picture : forall label t v g g' l, draw_green label t g = Some (v, g') -> NoDup g -> in_order t l ->
  let p := layered_layout default_tree_config v in
  map n_label (l_nodes p) = map (fun s => label (kind_of s)) l /\ NoDup (map n_id (l_nodes p)) /\
  (forall a b, In a (l_nodes p) -> In b (l_nodes p) -> a <> b -> ~ overlap (n_rect a) (n_rect b)) /\
  length (l_edges p) = length l - 1 /\
  (forall a b, In (a, b) (map (fun e => (e_from e, e_to e)) (l_edges p)) <->
     exists s c, In s (nodes_of v) /\ In c (v_children s) /\ v_id s = a /\ v_id c = b).
Proof.
  intros label t v g g' l E Nd O. cbv zeta. destruct (draw_shows _ _ _ _ _ E) as [S G].
  assert (Ni : NoDup (ids v)).
  { subst g. clear - Nd. revert Nd. generalize (ids v). induction l as [| a x IH]; intros H; [constructor|]. inversion H as [| p q P Q]; subst.
    constructor; [intros I; apply P; apply in_or_app; now left | now apply IH]. }
  destruct (shows_order _ _ _ _ S O) as [F _].
  assert (Sz : forall s, In s (nodes_of v) -> v_size s = None).
  { clear - F. induction F as [| s w l ws [_ H] _ IH]; [intros s []|]. intros s' [<- | I]; auto. }
  assert (Ed : l_edges (layered_layout default_tree_config v) = tree_edges v).
  { unfold layered_layout, layout_with. rewrite add_edges_edges, add_nodes_edges. reflexivity. }
  split; [|split; [|split; [|split]]].
  - rewrite (layered_nodes _ _ Ni), layered_labels. clear - F. induction F as [| s w l ws [H _] _ IH]; [reflexivity|]. cbn [map]. congruence.
  - rewrite (layered_nodes _ _ Ni), layered_ids. exact Ni.
  - apply layered_apart_partial; [exact Ni | cbn; lra | |].
    + intros s Hs. unfold wide, tall. rewrite (Sz s Hs). cbn. lra.
    + intros s u Hs Hu. unfold wide. rewrite (Sz s Hs), (Sz u Hu). cbn. lra.
  - rewrite Ed. apply forall2_len in F. rewrite F. pose proof (edges_count v). lia.
  - rewrite Ed. apply edges_in.
Qed.
Print Assumptions default_picture.

(** A tree with an empty node, drawn by two threads that take turns. *)
Definition sample : green := GNode 1 3 [GLeaf 2 1 None; GNode 3 0 []; GNode 4 2 [GLeaf 5 2 None]].
Definition named (k : nat) : str := lit "K" ++ dec k.

Example sample_drawn : exists v, draw_green named sample (grants_of 40 [7; 8; 7; 8; 7; 7; 8; 7] 7) = Some (v, []) /\
  ids v = [40; 42; 44; 45; 47] /\ v_count v = 5 /\ v_leaves v = 3 /\ v_depth v = 3.
Proof. eexists. split; [vm_compute; reflexivity|]. vm_compute. repeat split. Qed.

Example sample_order : in_order sample [sample; GLeaf 2 1 None; GNode 3 0 []; GNode 4 2 [GLeaf 5 2 None]; GLeaf 5 2 None].
Proof.
  change [sample; GLeaf 2 1 None; GNode 3 0 []; GNode 4 2 [GLeaf 5 2 None]; GLeaf 5 2 None]
    with (sample :: concat [[GLeaf 2 1 None]; [GNode 3 0 []]; [GNode 4 2 [GLeaf 5 2 None]; GLeaf 5 2 None]]).
  assert (A : forall s, parts s = [] -> in_order s [s]) by (intros s H; change [s] with (s :: concat []); constructor; rewrite H; constructor).
  constructor. repeat constructor; try (apply A; reflexivity).
  change [GNode 4 2 [GLeaf 5 2 None]; GLeaf 5 2 None] with (GNode 4 2 [GLeaf 5 2 None] :: concat [[GLeaf 5 2 None]]). constructor. repeat constructor. now apply A.
Qed.
