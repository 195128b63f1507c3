(** Theorems about the SVG renderer. *)
From Verif Require Import Base Utf8 HiSpec GraphProofs GeoModel GeoSpec GeoProofs SvgModel SvgSpec.
From Verif Require GeoProps.
Require Import QArith.

(** * Edges *)

Lemma tree_edges_pointless t : Forall (fun e => e_points e = []) (tree_edges t).
Proof.
  induction t as [i l s cs IH] using vtree_ind'. cbn [tree_edges]. induction IH as [| c r Hc _ IHr]; [constructor|]. constructor; [reflexivity|]. apply Forall_app. split; assumption.
Qed.
Lemma pointless_silent num c styles es : Forall (fun e => e_points e = []) es -> flat_map (render_edge num c styles) es = [].
Proof. induction es as [| e r IH]; intros F; [reflexivity|]. apply Forall_cons_iff in F. destruct F as [E F]. cbn [flat_map]. unfold render_edge at 1. rewrite E, (IH F). reflexivity. Qed.

Definition without_edges (l : layout) : layout := Layout (l_bounds l) (l_nodes l) [].

(** C108 fails: no edge of any tree is ever drawn: the picture is the one without edges. *)
Theorem tree_edges_invisible : forall num c ns es tc t, render_layout num c ns es (compact_layout tc t) = render_layout num c ns es (without_edges (compact_layout tc t)) /\
  render_layout num c ns es (layered_layout tc t) = render_layout num c ns es (without_edges (layered_layout tc t)).
Proof.
  assert (G : forall num c ns es nodes t, render_layout num c ns es (layout_with nodes (tree_edges t)) = render_layout num c ns es (without_edges (layout_with nodes (tree_edges t)))).
  { intros num c ns es nodes t. unfold render_layout. assert (E : l_edges (layout_with nodes (tree_edges t)) = tree_edges t) by (unfold layout_with; rewrite add_edges_edges, add_nodes_edges; reflexivity).
    rewrite E, (pointless_silent num c es _ (tree_edges_pointless t)). reflexivity. }
  intros num c ns es tc t. split; apply G.
Qed.
Print Assumptions tree_edges_invisible.

Theorem tree_edges_refuted : exists t, length (tree_edges t) = 1%nat /\ forall num c ns es tc,
  render_layout num c ns es (compact_layout tc t) = render_layout num c ns es (without_edges (compact_layout tc t)).
Proof. exists (VNode 0 [] None [VNode 1 [] None []]). split; [reflexivity|]. intros num c ns es tc. exact (proj1 (tree_edges_invisible num c ns es tc _)). Qed.
Print Assumptions tree_edges_refuted.

Lemma route_edges es : forall l e a b, In e es -> get_node (l_nodes l) (fst e) = Some a -> get_node (l_nodes l) (snd e) = Some b ->
  In (Edge (fst e) (snd e) [center (n_rect a); center (n_rect b)] None) (l_edges (fold_left route es l)).
Proof.
  assert (K : forall fs l x, In x (l_edges l) -> In x (l_edges (fold_left route fs l))).
  { induction fs as [| e r IH]; intros l x H; cbn [fold_left]; [exact H|]. apply IH. unfold route. destruct (get_node _ (fst e)); [|exact H]. destruct (get_node _ (snd e)); [|exact H]. cbn [add_edge l_edges]. apply in_app_iff. now left. }
  induction es as [| e0 r IH]; intros l e a b Hi Ha Hb; [contradiction|]. cbn [fold_left]. destruct Hi as [-> | Hi].
  - apply K. unfold route. rewrite Ha, Hb. cbn [add_edge l_edges]. apply in_app_iff. right. now left.
  - assert (En : l_nodes (route l e0) = l_nodes l) by (unfold route; destruct (get_node _ (fst e0)); [|reflexivity]; destruct (get_node _ (snd e0)); reflexivity). apply IH; [assumption | now rewrite En | now rewrite En].
Qed.

Lemma get_node_some l id : In id (map n_id l) -> exists n, get_node l id = Some n /\ In n l /\ n_id n = id.
Proof.
  intros H. unfold get_node. destruct (find (fun n => (n_id n =? id)%nat) l) as [n|] eqn:E.
  - exists n. apply find_some in E. destruct E as [E1 E2]. split; [reflexivity|]. split; [assumption | now apply Nat.eqb_eq].
  - exfalso. apply in_map_iff in H. destruct H as (n & En & Hn). apply (find_none _ _ E) in Hn. cbn beta in Hn. rewrite En, Nat.eqb_refl in Hn. discriminate.
Qed.

Lemma edge_drawn num c ns es l e p q : In e (l_edges l) -> e_points e = [p; q] -> draws_line num (render_layout num c ns es l) p q.
Proof.
  intros H E. apply in_split in H. destruct H as (A & B & H). unfold render_layout. rewrite H, flat_map_app. cbn [flat_map].
  assert (R : exists b, render_edge num c es e = lit "    " ++ lit "<path d=""M " ++ num (px p) ++ lit " " ++ num (py p) ++ lit " L " ++ num (px q) ++ lit " " ++ num (py q) ++ lit """" ++ b).
  { unfold render_edge. rewrite E. unfold path_data, attr at 1. cbn [flat_map]. rewrite app_nil_r. eexists. change (lit "<path d=""M ") with (lit "<path" ++ [32%Z] ++ lit "d" ++ [61%Z; 34%Z] ++ lit "M ").
    change (lit "    <path") with (lit "    " ++ lit "<path"). change [34%Z] with (lit """"). rewrite <- !app_assoc. reflexivity. }
  destruct R as (b & ->). exists (header num c l ++ flat_map (render_edge num c es) A ++ lit "    "), (b ++ flat_map (render_edge num c es) B ++ flat_map (render_node num c ns) (l_nodes l) ++ lit "  </g>" ++ [10%Z] ++ lit "</svg>"). rewrite <- !app_assoc. reflexivity.
Qed.

(** C104: the document names the width and height of a canvas and moves everything by an offset that puts every node onto it, at least the
    padding away from its border. *)
Theorem canvas_drawn : forall num c ns es l, exists w h x y m b,
  render_layout num c ns es l = lit "<svg width=""" ++ num w ++ lit """ height=""" ++ num h ++ lit """" ++ m ++ lit "<g transform=""translate(" ++ num x ++ lit ", " ++ num y ++ lit ")"">" ++ b /\
  forall n, In n (l_nodes l) -> proper (n_rect n) -> within (rect_translate (n_rect n) x y) (from_xywh (rc_padding c) (rc_padding c) (w - 2 * rc_padding c) (h - 2 * rc_padding c)).
Proof.
  intros num c ns es l. set (s := canvas_size (rc_canvas c) (rc_padding c) l). set (o := canvas_offset (rc_canvas c) (rc_padding c) l).
  assert (H : exists m, header num c l = lit "<svg width=""" ++ num (sw s) ++ lit """ height=""" ++ num (sh s) ++ lit """" ++ m ++ lit "<g transform=""translate(" ++ num (px o) ++ lit ", " ++ num (py o) ++ lit ")"">" ++ [10%Z]).
  { unfold header. fold s o. cbv zeta. match goal with |- context [if rc_arrows c then ?x else []] => generalize (if rc_arrows c then x else []) end. intros arrows.
    exists (attr (lit "xmlns") (lit "http://www.w3.org/2000/svg") ++ lit ">" ++ [10%Z] ++ lit "  <rect" ++ attr (lit "width") (lit "100%") ++ attr (lit "height") (lit "100%") ++ attr (lit "fill") (rc_background c) ++ lit "/>" ++ [10%Z] ++
      lit "  <defs>" ++ [10%Z] ++ lit "    <style>" ++ [10%Z] ++ lit "      .node { cursor: pointer }" ++ [10%Z] ++ lit "      .node:hover { opacity: 0.8 }" ++ [10%Z] ++
      lit "      .edge { pointer-events: none }" ++ [10%Z] ++ lit "      .label { pointer-events: none; user-select: none }" ++ [10%Z] ++ lit "    </style>" ++ [10%Z] ++ arrows ++ lit "  </defs>" ++ [10%Z] ++ lit "  ").
    unfold attr. change (lit "<svg width=""") with (lit "<svg" ++ [32%Z] ++ lit "width" ++ [61%Z; 34%Z]). change (lit """ height=""") with ([34%Z] ++ [32%Z] ++ lit "height" ++ [61%Z; 34%Z]). change (lit """") with [34%Z].
    change (lit "<g transform=""translate(") with (lit "<g" ++ [32%Z] ++ lit "transform" ++ [61%Z; 34%Z] ++ lit "translate("). change (lit ")"">") with (lit ")" ++ [34%Z] ++ lit ">"). change (lit "  <g") with (lit "  " ++ lit "<g"). rewrite <- !app_assoc. reflexivity. }
  destruct H as (m & Hm). exists (sw s), (sh s), (px o), (py o), m. eexists. split; [|intros n Hn Hp; exact (GeoProps.canvas_holds_all (rc_canvas c) (rc_padding c) l n Hn Hp)].
  unfold render_layout. rewrite Hm, <- !app_assoc. reflexivity.
Qed.
Print Assumptions canvas_drawn.

(** C108: in graph layouts every edge between existing nodes is drawn from centre to centre. *)
Theorem graph_edges_drawn : forall num c ns es gc vs ges e, NoDup (map vx_id vs) -> In e ges -> In (fst e) (map vx_id vs) -> In (snd e) (map vx_id vs) ->
  exists ra rb, placed_at (grid_layout gc vs ges) (fst e) ra /\ placed_at (grid_layout gc vs ges) (snd e) rb /\
  draws_line num (render_layout num c ns es (grid_layout gc vs ges)) (center ra) (center rb).
Proof.
  intros num c ns es gc vs ges e Nd He Ha Hb. destruct vs as [| v0 r0]; [contradiction|]. unfold grid_layout. set (vs := v0 :: r0) in *. set (ns0 := grid gc (columns (length vs)) 0 vs).
  assert (Ei : map n_id ns0 = map vx_id vs).
  { destruct (grid_spec gc (columns (length vs)) vs 0) as (F & _). fold ns0 in F. clear -F. induction F as [| v n l m (E & _) _ IH]; [reflexivity|]. cbn [map]. congruence. }
  assert (En : l_nodes (fold_left add_node ns0 new_layout) = ns0) by (apply add_nodes_fresh; now rewrite Ei).
  rewrite <- Ei in Ha, Hb. destruct (get_node_some _ _ Ha) as (a & Ga & Ia & Xa). destruct (get_node_some _ _ Hb) as (b & Gb & Ib & Xb). rewrite <- En in Ga, Gb.
  exists (n_rect a), (n_rect b). split; [exists a; rewrite route_nodes, En; now split|]. split; [exists b; rewrite route_nodes, En; now split|].
  eapply edge_drawn; [apply (route_edges ges _ e a b He Ga Gb) | reflexivity].
Qed.
Print Assumptions graph_edges_drawn.

(** * Labels *)

Inductive state := Outside | Tag | Broken.
Definition next (st : state) (c : Z) : state :=
  match st with
  | Outside => if (c =? 60)%Z then Tag else if (c =? 62)%Z then Broken else Outside
  | Tag => if (c =? 60)%Z then Broken else if (c =? 62)%Z then Outside else Tag
  | Broken => Broken
  end.
Definition scan (st : state) (s : list Z) : state := fold_left next s st.
Lemma scan_app st a b : scan st (a ++ b) = scan (scan st a) b.
Proof. apply fold_left_app. Qed.
Lemma scan_plain s : plain s -> forall st, scan st s = st.
Proof.
  intros [A B]. induction s as [| c r IH]; intros st; [reflexivity|]. change (scan st (c :: r)) with (scan (next st c) r).
  assert (E : next st c = st). { destruct st; cbn; destruct (Z.eqb_spec c 60) as [-> | _]; try (exfalso; apply A; now left); destruct (Z.eqb_spec c 62) as [-> | _]; try (exfalso; apply B; now left); reflexivity. }
  rewrite E. apply IH; [intros H; apply A; now right | intros H; apply B; now right].
Qed.
Lemma scan_broken s : scan Broken s = Broken.
Proof. induction s as [| c r IH]; [reflexivity | exact IH]. Qed.
Lemma shows_scan s x : shows s x -> scan Outside s = Outside.
Proof.
  intros H. induction H as [| t r x A B _ IH | e c r x E _ IH | c r x A B C _ IH].
  - reflexivity.
  - change (scan Outside (60%Z :: t ++ 62%Z :: r)) with (scan Tag (t ++ 62%Z :: r)). rewrite scan_app, (scan_plain t (conj A B)). exact IH.
  - rewrite scan_app. replace (scan Outside e) with Outside; [exact IH|]. cbn in E. repeat destruct E as [E | E]; try contradiction; injection E as <- _; reflexivity.
  - change (scan Outside (c :: r)) with (scan (next Outside c) r). cbn [next]. apply Z.eqb_neq in A. apply Z.eqb_neq in B. rewrite A, B. exact IH.
Qed.

Lemma plain_app a b : plain a -> plain b -> plain (a ++ b).
Proof. intros [A1 A2] [B1 B2]. split; intros H; apply in_app_iff in H; tauto. Qed.
Definition plainb (s : list Z) : bool := forallb (fun c => negb (c =? 60)%Z && negb (c =? 62)%Z) s.
Lemma plainb_ok s : plainb s = true -> plain s.
Proof. intros H. unfold plainb in H. rewrite forallb_forall in H. split; intros X; apply H in X; discriminate X. Qed.
Definition harmlessb (s : list Z) : bool := plainb s && forallb (fun c => negb (c =? 38)%Z) s.
Lemma harmlessb_ok s : harmlessb s = true -> harmless s.
Proof. intros H. unfold harmlessb in H. apply andb_true_iff in H. destruct H as [A B]. split; [now apply plainb_ok|]. rewrite forallb_forall in B. intros X. apply B in X. discriminate X. Qed.
Ltac plain_lit := apply plainb_ok; vm_compute; reflexivity.
Ltac harmless_lit := apply harmlessb_ok; vm_compute; reflexivity.
Lemma plain_attr k v : plain k -> plain v -> plain (attr k v).
Proof. intros Hk Hv. unfold attr. repeat apply plain_app; try assumption; plain_lit. Qed.

(** Everything the caller can put into tags. *)
Definition plain_style (s : element_style) : Prop :=
  (forall c, es_fill s = Some c -> plain c) /\ (forall c, es_stroke s = Some c -> plain c) /\ (forall c, es_text_color s = Some c -> plain c) /\
  (forall c, es_class s = Some c -> plain c) /\ Forall (fun kv => plain (fst kv) /\ plain (snd kv)) (es_attributes s).
Definition plain_config (c : render_config) : Prop := plain (rc_node_fill c) /\ plain (rc_node_stroke c) /\ plain (rc_text_color c) /\ plain (rc_font c).

Lemma plain_style_attributes num kind style : (forall q, plain (num q)) -> plain kind -> (forall s, style = Some s -> plain_style s) -> plain (style_attributes num kind style).
Proof.
  intros Hn Hk Hs. destruct style as [s|]; [|plain_lit]. destruct (Hs s eq_refl) as (_ & _ & _ & Hc & Ha). unfold style_attributes. repeat apply plain_app.
  - destruct (es_opacity s); [apply plain_attr; [plain_lit | apply Hn] | plain_lit].
  - destruct (es_class s) as [c|]; [apply plain_attr; [plain_lit|]; apply plain_app; [assumption|]; apply plain_app; [plain_lit | now apply Hc] | plain_lit].
  - induction Ha as [| kv r [K V] _ IH]; [plain_lit|]. cbn [flat_map]. apply plain_app; [now apply plain_attr | assumption].
Qed.

Lemma plain_or o d : (forall c, o = Some c -> plain c) -> plain d -> plain (or o d).
Proof. intros Ho Hd. destruct o as [c|]; [now apply Ho | assumption]. Qed.

Lemma shows_harmless s : harmless s -> forall r x, shows r x -> shows (s ++ r) (s ++ x).
Proof.
  intros [[A B] C]. induction s as [| c s IH]; intros r x H; [assumption|]. cbn [app]. apply SChar; try (intros ->).
  - apply A. now left.
  - apply B. now left.
  - apply C. now left.
  - apply IH; [intros X; apply A; now right | intros X; apply B; now right | intros X; apply C; now right | assumption].
Qed.
Lemma shows_tag t r x : plain t -> shows r x -> shows (lit "<" ++ t ++ lit ">" ++ r) x.
Proof. intros [A B] H. change (shows (60%Z :: t ++ 62%Z :: r) x). now constructor. Qed.

Ltac pl := lazymatch goal with
  | |- plain (attr _ _) => apply plain_attr; pl
  | |- plain (_ ++ _) => apply plain_app; pl
  | |- plain (lit _) => plain_lit
  | H : forall q, plain (?num q) |- plain (?num _) => apply H
  | _ => assumption
  end.

(** The rendered node is a rectangle tag and a text tag around the label. *)
Lemma render_node_parts num c styles n : (forall q, plain (num q)) -> plain_config c -> (forall s, styles (n_id n) = Some s -> plain_style s) -> rc_labels c = true ->
  exists t u, plain t /\ plain u /\ render_node num c styles n = lit "    " ++ (lit "<" ++ t ++ lit ">" ++ ([10%Z] ++ lit "    ") ++ lit "<" ++ u ++ lit ">" ++ n_label n ++ (lit "<" ++ lit "/text" ++ lit ">" ++ [10%Z])).
Proof.
  intros Hn (C1 & C2 & C3 & C4) Hs Hl. unfold render_node. cbv zeta. rewrite Hl. unfold text_element.
  assert (Ff : plain (or (bind (styles (n_id n)) es_fill) (rc_node_fill c))) by (apply plain_or; [|assumption]; intros z Hz; destruct (styles (n_id n)) as [s|]; [destruct (Hs s eq_refl) as (P & _); exact (P z Hz) | discriminate]).
  assert (Fs : plain (or (bind (styles (n_id n)) es_stroke) (rc_node_stroke c))) by (apply plain_or; [|assumption]; intros z Hz; destruct (styles (n_id n)) as [s|]; [destruct (Hs s eq_refl) as (_ & P & _); exact (P z Hz) | discriminate]).
  assert (Ft : plain (or (bind (styles (n_id n)) es_text_color) (rc_text_color c))) by (apply plain_or; [|assumption]; intros z Hz; destruct (styles (n_id n)) as [s|]; [destruct (Hs s eq_refl) as (_ & _ & P & _); exact (P z Hz) | discriminate]).
  assert (Fa : plain (style_attributes num (lit "node") (styles (n_id n)))) by (apply plain_style_attributes; [assumption | plain_lit | assumption]).
  eexists (lit "rect" ++ attr (lit "x") _ ++ attr (lit "y") _ ++ attr (lit "width") _ ++ attr (lit "height") _ ++ attr (lit "fill") _ ++ attr (lit "stroke") _ ++ attr (lit "stroke-width") _ ++ attr (lit "class") (lit "node") ++ style_attributes num (lit "node") (styles (n_id n)) ++ lit "/"),
    (lit "text" ++ attr (lit "x") _ ++ attr (lit "y") _ ++ attr (lit "text-anchor") (lit "middle") ++ attr (lit "dominant-baseline") (lit "central") ++ attr (lit "fill") _ ++ attr (lit "font-size") _ ++ attr (lit "font-family") (rc_font c) ++ attr (lit "class") (lit "label")).
  split; [|split]; cycle 2.
  - rewrite <- !app_assoc. change (lit "    <rect") with (lit "    " ++ lit "<" ++ lit "rect"). change (lit "    <text") with (lit "    " ++ lit "<" ++ lit "text"). change (lit "/>") with (lit "/" ++ lit ">"). change (lit "</text>") with (lit "<" ++ lit "/text" ++ lit ">"). rewrite <- !app_assoc. reflexivity.
  - pl.
  - pl.
Qed.

(** C109: a label without [<], [>] and [&] is shown as it is. *)
Theorem label_shown_partial : forall num c styles n, (forall q, plain (num q)) -> plain_config c -> (forall s, styles (n_id n) = Some s -> plain_style s) -> rc_labels c = true ->
  harmless (n_label n) -> shows (render_node num c styles n) (lit "    " ++ ([10%Z] ++ lit "    ") ++ n_label n ++ [10%Z]).
Proof.
  intros num c styles n Hn Hc Hs Hl Hh. destruct (render_node_parts num c styles n Hn Hc Hs Hl) as (t & u & Pt & Pu & ->).
  assert (W : forall s, harmless s -> forall r x, shows r x -> shows (s ++ r) (s ++ x)) by (intros; now apply shows_harmless).
  apply W; [harmless_lit|]. apply shows_tag; [assumption|]. apply W; [harmless_lit|]. apply shows_tag; [assumption|]. apply W; [assumption|].
  apply shows_tag; [plain_lit|]. rewrite <- (app_nil_r [10%Z]). apply W; [harmless_lit | constructor].
Qed.
Print Assumptions label_shown_partial.

(** C109 fails for [<]: the output is not even well formed. *)
Theorem label_refuted : exists n, n_label n = lit "a<b" /\ forall num c styles, (forall q, plain (num q)) -> plain_config c -> (forall s, styles (n_id n) = Some s -> plain_style s) -> rc_labels c = true ->
  forall x, ~ shows (render_node num c styles n) x.
Proof.
  exists (Node 0 (lit "a<b") default_rect). split; [reflexivity|]. intros num c styles Hn Hc Hs Hl x H.
  destruct (render_node_parts num c styles _ Hn Hc Hs Hl) as (t & u & Pt & Pu & E). rewrite E in H. apply shows_scan in H. cbn [n_label] in H. rewrite !scan_app in H.
  change (scan Outside (lit "    ")) with Outside in H. change (scan Outside (lit "<")) with Tag in H. rewrite (scan_plain t Pt) in H. change (scan Tag (lit ">")) with Outside in H. change (scan Outside [10%Z]) with Outside in H.
  change (scan Outside (lit "    ")) with Outside in H. change (scan Outside (lit "<")) with Tag in H. rewrite (scan_plain u Pu) in H. change (scan Tag (lit ">")) with Outside in H. vm_compute in H. discriminate H.
Qed.
Print Assumptions label_refuted.

(** C110 fails: a style with a class gives every node two class attributes. *)
Theorem class_twice : forall num c styles n s k, styles (n_id n) = Some s -> es_class s = Some k -> plain k -> (forall q, plain (num q)) ->
  repeated_attribute (render_node num c styles n) (lit "class").
Proof.
  intros num c styles n s k Es Ek Pk Hn. unfold render_node. cbv zeta. rewrite Es. unfold style_attributes. rewrite Ek. unfold repeated_attribute. fold (attr (lit "class")).
  eexists (lit "    <rect" ++ attr (lit "x") _ ++ attr (lit "y") _ ++ attr (lit "width") _ ++ attr (lit "height") _ ++ attr (lit "fill") _ ++ attr (lit "stroke") _ ++ attr (lit "stroke-width") _), (lit "node"),
    (match es_opacity s with Some o => attr (lit "opacity") (num o) | None => [] end), (lit "node" ++ lit " " ++ k), _.
  split; [|split; [plain_lit | split; [destruct (es_opacity s); [pl | plain_lit] | pl]]]. cbv zeta. change (fun v => [32%Z] ++ lit "class" ++ [61%Z; 34%Z] ++ v ++ [34%Z]) with (attr (lit "class")).
  repeat match goal with |- context [[32%Z] ++ lit "class" ++ [61%Z; 34%Z] ++ ?v ++ [34%Z]] => change ([32%Z] ++ lit "class" ++ [61%Z; 34%Z] ++ v ++ [34%Z]) with (attr (lit "class") v) end.
  rewrite <- !app_assoc. reflexivity.
Qed.
Print Assumptions class_twice.

Theorem class_twice_refuted : exists s n, es_class s = Some (lit "hot") /\ forall num c, (forall q, plain (num q)) ->
  repeated_attribute (render_node num c (fun _ => Some s) n) (lit "class").
Proof.
  exists (ElementStyle None None None None None None (Some (lit "hot")) []), (Node 0 (lit "a") default_rect). split; [reflexivity|]. intros num c Hn.
  eapply class_twice; [reflexivity | reflexivity | plain_lit | assumption].
Qed.
Print Assumptions class_twice_refuted.

(** The attributes every node has. *)
Definition node_keys : list (list Z) := [lit "x"; lit "y"; lit "width"; lit "height"; lit "fill"; lit "stroke"; lit "stroke-width"; lit "class"; lit "opacity"].

(** C110: without a class and with custom attributes of new names every attribute of the node occurs once. *)
Theorem attributes_once_partial : forall num c styles n, (forall s, styles (n_id n) = Some s -> es_class s = None /\ NoDup (map fst (es_attributes s)) /\ forall k, In k (map fst (es_attributes s)) -> ~ In k node_keys) ->
  exists kvs rest, render_node num c styles n = lit "    <rect" ++ attributes kvs ++ lit "/>" ++ rest /\ NoDup (map fst kvs).
Proof.
  intros num c styles n H. unfold render_node. cbv zeta.
  set (own := ([(lit "x", num (px (origin (n_rect n)))); (lit "y", num (py (origin (n_rect n)))); (lit "width", num (sw (extent (n_rect n)))); (lit "height", num (sh (extent (n_rect n))));
    (lit "fill", or (bind (styles (n_id n)) es_fill) (rc_node_fill c)); (lit "stroke", or (bind (styles (n_id n)) es_stroke) (rc_node_stroke c)); (lit "stroke-width", num (or (bind (styles (n_id n)) es_stroke_width) (rc_node_width c))); (lit "class", lit "node")] : list (list Z * list Z))).
  set (more := (match styles (n_id n) with None => [] | Some s => match es_opacity s with Some o => [(lit "opacity", num o)] | None => [] end ++ es_attributes s end : list (list Z * list Z))).
  exists (own ++ more). eexists. split.
  - unfold attributes. rewrite flat_map_app. replace (style_attributes num (lit "node") (styles (n_id n))) with (attributes more).
    + unfold own. cbn [flat_map fst snd]. fold (attributes more). unfold attr. rewrite <- !app_assoc. reflexivity.
    + unfold more, style_attributes, attributes. destruct (styles (n_id n)) as [s|]; [|reflexivity]. destruct (H s eq_refl) as (-> & _ & _). rewrite flat_map_app. destruct (es_opacity s); [|reflexivity]. cbn [flat_map fst snd]. rewrite app_nil_r. reflexivity.
  - rewrite map_app. assert (No : NoDup (node_keys)) by (unfold node_keys; repeat (constructor; [intros X; repeat destruct X as [X | X]; discriminate X || contradiction|]); constructor).
    assert (Em : exists o, (o = [] \/ o = [lit "opacity"]) /\ exists ks, map fst more = o ++ ks /\ NoDup ks /\ forall k, In k ks -> ~ In k node_keys).
    { unfold more. destruct (styles (n_id n)) as [s|]; [|exists []; split; [now left|]; exists []; repeat split; [constructor | intros k []]]. destruct (H s eq_refl) as (_ & Nd & Nk).
      destruct (es_opacity s); [exists [lit "opacity"] | exists []]; (split; [tauto|]; exists (map fst (es_attributes s)); split; [now rewrite map_app | now split]). }
    destruct Em as (o & Ho & ks & Em & Nd & Nk). unfold str in *. rewrite Em, app_assoc. apply NoDup_app_intro.
    + change (map fst own) with (firstn 8 node_keys). destruct Ho as [-> | ->]; [|exact No]. rewrite app_nil_r. change (NoDup (firstn 8 node_keys ++ lit "opacity" :: [])) in No. apply NoDup_remove_1 in No. now rewrite app_nil_r in No.
    + assumption.
    + intros k Hk Hi. apply (Nk k Hi). apply in_app_iff in Hk. change node_keys with (map fst own ++ [lit "opacity"]). apply in_app_iff. destruct Hk as [Hk | Hk]; [now left|]. right. destruct Ho as [-> | ->]; [contradiction | exact Hk].
Qed.
Print Assumptions attributes_once_partial.

Example attributes_case : forall k, In k (map fst (es_attributes (ElementStyle None None None None None (Some (1 # 2)) None [(lit "id", lit "n1")]))) -> ~ In k node_keys.
Proof. intros k [<- | []] X. repeat destruct X as [X | X]; discriminate X || contradiction. Qed.

Example label_case : harmless (lit "fn main()") /\ plain_config default_render_config.
Proof. split; [harmless_lit|]. split; [plain_lit|]. split; [plain_lit|]. split; plain_lit. Qed.
