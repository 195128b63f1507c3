(** Model of the SVG renderer, projects/oak-visualize/src/render/mod.rs.
    Numbers are printed by [num], a parameter (Rust's printing of f64).  Texts are sequences of code points. *)
From Verif Require Import Base Utf8 GeoModel.
Require Import QArith.

(** render/mod.rs:11-28: the parts used *)
Record render_config := RenderConfig {
  rc_canvas : size; rc_background : list Z; rc_node_fill : list Z; rc_node_stroke : list Z; rc_node_width : Q;
  rc_edge_color : list Z; rc_edge_width : Q; rc_text_color : list Z; rc_text_size : Q; rc_font : list Z;
  rc_padding : Q; rc_labels : bool; rc_arrows : bool; rc_arrow_size : Q }.

(** render/mod.rs:30-50 *)
Definition default_render_config : render_config :=
  RenderConfig (Size 800 600) (lit "#ffffff") (lit "#e1f5fe") (lit "#0277bd") 2 (lit "#666666") (3 # 2) (lit "#333333") 12
    (lit "Arial, sans-serif") 20 true true 8.

(** render/mod.rs:53-63 *)
Record element_style := ElementStyle {
  es_fill : option (list Z); es_stroke : option (list Z); es_stroke_width : option Q; es_text_color : option (list Z);
  es_text_size : option Q; es_opacity : option Q; es_class : option (list Z); es_attributes : list (list Z * list Z) }.

(** render/mod.rs:65-69 *)
Definition default_style : element_style := ElementStyle None None None None None None None [].

Definition or {A} (o : option A) (d : A) : A := match o with Some a => a | None => d end.
Definition bind {A B} (o : option A) (f : A -> option B) : option B := match o with Some a => f a | None => None end.

(** [key="value"] after a space *)
Definition attr (key value : list Z) : list Z := [32%Z] ++ key ++ [61%Z; 34%Z] ++ value ++ [34%Z].

(** render/mod.rs:215-225 and 272-282; [kind] is the class of the element *)
Definition style_attributes (num : Q -> list Z) (kind : list Z) (style : option element_style) : list Z :=
  match style with
  | None => []
  | Some s =>
      (match es_opacity s with Some o => attr (lit "opacity") (num o) | None => [] end) ++
      (match es_class s with Some c => attr (lit "class") (kind ++ lit " " ++ c) | None => [] end) ++
      flat_map (fun kv => attr (fst kv) (snd kv)) (es_attributes s)
  end.

(** render/mod.rs:229-240, 300-309 *)
Definition text_element (num : Q -> list Z) (c : render_config) (x y : Q) (color : list Z) (sz : Q) (label : list Z) : list Z :=
  lit "    <text" ++ attr (lit "x") (num x) ++ attr (lit "y") (num y) ++ attr (lit "text-anchor") (lit "middle") ++
  attr (lit "dominant-baseline") (lit "central") ++ attr (lit "fill") color ++ attr (lit "font-size") (num sz) ++
  attr (lit "font-family") (rc_font c) ++ attr (lit "class") (lit "label") ++ lit ">" ++ label ++ lit "</text>" ++ [10%Z].

(** render/mod.rs:203-243; [styles] is the lookup in the table of node styles *)
Definition render_node (num : Q -> list Z) (c : render_config) (styles : nat -> option element_style) (n : node) : list Z :=
  let style := styles (n_id n) in
  let r := n_rect n in
  let fill := or (bind style es_fill) (rc_node_fill c) in
  let stroke := or (bind style es_stroke) (rc_node_stroke c) in
  let width := or (bind style es_stroke_width) (rc_node_width c) in
  lit "    <rect" ++ attr (lit "x") (num (px (origin r))) ++ attr (lit "y") (num (py (origin r))) ++ attr (lit "width") (num (sw (extent r))) ++
  attr (lit "height") (num (sh (extent r))) ++ attr (lit "fill") fill ++ attr (lit "stroke") stroke ++ attr (lit "stroke-width") (num width) ++
  attr (lit "class") (lit "node") ++ style_attributes num (lit "node") style ++ lit "/>" ++ [10%Z] ++
  if rc_labels c then
    text_element num c (px (center r)) (py (center r)) (or (bind style es_text_color) (rc_text_color c)) (or (bind style es_text_size) (rc_text_size c)) (n_label n)
  else [].

(** render/mod.rs:257-262 *)
Definition path_data (num : Q -> list Z) (p : point) (ps : list point) : list Z :=
  lit "M " ++ num (px p) ++ lit " " ++ num (py p) ++ flat_map (fun q => lit " L " ++ num (px q) ++ lit " " ++ num (py q)) ps.

(** render/mod.rs:245-313; [styles] is the lookup by the identifiers of both ends *)
Definition render_edge (num : Q -> list Z) (c : render_config) (styles : nat * nat -> option element_style) (e : edge) : list Z :=
  let style := styles (e_from e, e_to e) in
  let stroke := or (bind style es_stroke) (rc_edge_color c) in
  let width := or (bind style es_stroke_width) (rc_edge_width c) in
  match e_points e with
  | p :: q :: ps =>
      lit "    <path" ++ attr (lit "d") (path_data num p (q :: ps)) ++ attr (lit "stroke") stroke ++ attr (lit "stroke-width") (num width) ++
      attr (lit "fill") (lit "none") ++ attr (lit "class") (lit "edge") ++ (if rc_arrows c then attr (lit "marker-end") (lit "url(#arrowhead)") else []) ++
      style_attributes num (lit "edge") style ++ lit "/>" ++ [10%Z] ++
      match e_label e with
      | Some label =>
          let z := last (q :: ps) p in
          text_element num c ((px p + px z) / 2) ((py p + py z) / 2 - 5) (or (bind style es_text_color) (rc_text_color c)) (or (bind style es_text_size) (rc_text_size c * (8 # 10))) label
      | None => []
      end
  | _ => []
  end.

(** render/mod.rs:146-185: everything before the first edge *)
Definition header (num : Q -> list Z) (c : render_config) (l : layout) : list Z :=
  let s := canvas_size (rc_canvas c) (rc_padding c) l in
  let o := canvas_offset (rc_canvas c) (rc_padding c) l in
  lit "<svg" ++ attr (lit "width") (num (sw s)) ++ attr (lit "height") (num (sh s)) ++ attr (lit "xmlns") (lit "http://www.w3.org/2000/svg") ++ lit ">" ++ [10%Z] ++
  lit "  <rect" ++ attr (lit "width") (lit "100%") ++ attr (lit "height") (lit "100%") ++ attr (lit "fill") (rc_background c) ++ lit "/>" ++ [10%Z] ++
  lit "  <defs>" ++ [10%Z] ++ lit "    <style>" ++ [10%Z] ++ lit "      .node { cursor: pointer }" ++ [10%Z] ++ lit "      .node:hover { opacity: 0.8 }" ++ [10%Z] ++
  lit "      .edge { pointer-events: none }" ++ [10%Z] ++ lit "      .label { pointer-events: none; user-select: none }" ++ [10%Z] ++ lit "    </style>" ++ [10%Z] ++
  (if rc_arrows c then
     let a := num (rc_arrow_size c) in
     lit "    <marker" ++ attr (lit "id") (lit "arrowhead") ++ attr (lit "markerWidth") a ++ attr (lit "markerHeight") a ++ attr (lit "refX") a ++
     attr (lit "refY") (num (rc_arrow_size c / 2)) ++ attr (lit "orient") (lit "auto") ++ lit ">" ++ [10%Z] ++ lit "      <polygon" ++
     attr (lit "points") (lit "0 0, " ++ a ++ lit " " ++ a ++ lit ", " ++ a ++ lit " 0") ++ attr (lit "fill") (rc_edge_color c) ++ lit "/>" ++ [10%Z] ++ lit "    </marker>" ++ [10%Z]
   else []) ++
  lit "  </defs>" ++ [10%Z] ++ lit "  <g" ++ attr (lit "transform") (lit "translate(" ++ num (px o) ++ lit ", " ++ num (py o) ++ lit ")") ++ lit ">" ++ [10%Z].

(** render/mod.rs:138-201 *)
Definition render_layout (num : Q -> list Z) (c : render_config) (nstyles : nat -> option element_style) (estyles : nat * nat -> option element_style) (l : layout) : list Z :=
  header num c l ++ flat_map (render_edge num c estyles) (l_edges l) ++ flat_map (render_node num c nstyles) (l_nodes l) ++ lit "  </g>" ++ [10%Z] ++ lit "</svg>".
