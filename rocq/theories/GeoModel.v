(** Model of the geometry and the layouts of projects/oak-visualize/src (geometry, layout, tree, graph and render).
    Numbers are exact rationals, without rounding, infinities and NaN.  Identifiers are natural numbers, since they are
    only compared.  A node table is the list of its entries in the order of iteration, which is arbitrary. *)
From Verif Require Import Base Utf8 GraphModel.
Require Import QArith Qminmax.
Open Scope Q_scope.

(** geometry/mod.rs:7-10, 59-62, 96-99 *)
Record point := Point { px : Q; py : Q }.
Record size := Size { sw : Q; sh : Q }.
Record rect := Rect { origin : point; extent : size }.

(** geometry/mod.rs:26-32, 41-55 *)
Definition point_translate (p : point) (dx dy : Q) : point := Point (px p + dx) (py p + dy).
Definition point_scale (p : point) (k : Q) : point := Point (px p * k) (py p * k).
Definition point_add (p q : point) : point := Point (px p + px q) (py p + py q).
Definition point_sub (p q : point) : point := Point (px p - px q) (py p - py q).

(** geometry/mod.rs:72-84 *)
Definition area (s : size) : Q := sw s * sh s.
Definition size_scale (s : size) (k : Q) : size := Size (sw s * k) (sh s * k).

(** geometry/mod.rs:102-118 *)
Definition from_xywh (x y w h : Q) : rect := Rect (Point x y) (Size w h).
Definition from_points (p q : point) : rect :=
  let min_x := Qmin (px p) (px q) in
  let min_y := Qmin (py p) (py q) in
  let max_x := Qmax (px p) (px q) in
  let max_y := Qmax (py p) (py q) in
  from_xywh min_x min_y (max_x - min_x) (max_y - min_y).

(** geometry/mod.rs:120-160 *)
Definition min_x (r : rect) : Q := px (origin r).
Definition min_y (r : rect) : Q := py (origin r).
Definition max_x (r : rect) : Q := px (origin r) + sw (extent r).
Definition max_y (r : rect) : Q := py (origin r) + sh (extent r).
Definition center (r : rect) : point := Point (px (origin r) + sw (extent r) / 2) (py (origin r) + sh (extent r) / 2).

Definition Qlt_bool (a b : Q) : bool := negb (Qle_bool b a).

(** geometry/mod.rs:168-174 *)
Definition contains_point (r : rect) (p : point) : bool :=
  Qle_bool (min_x r) (px p) && Qle_bool (px p) (max_x r) && Qle_bool (min_y r) (py p) && Qle_bool (py p) (max_y r).
Definition intersects (r s : rect) : bool :=
  negb (Qlt_bool (max_x r) (min_x s) || Qlt_bool (max_x s) (min_x r) || Qlt_bool (max_y r) (min_y s) || Qlt_bool (max_y s) (min_y r)).

(** geometry/mod.rs:176-195 *)
Definition union (r s : rect) : rect :=
  let x0 := Qmin (min_x r) (min_x s) in
  let y0 := Qmin (min_y r) (min_y s) in
  let x1 := Qmax (max_x r) (max_x s) in
  let y1 := Qmax (max_y r) (max_y s) in
  from_xywh x0 y0 (x1 - x0) (y1 - y0).
Definition rect_translate (r : rect) (dx dy : Q) : rect := Rect (point_translate (origin r) dx dy) (extent r).
Definition rect_scale (r : rect) (k : Q) : rect := Rect (point_scale (origin r) k) (size_scale (extent r) k).
Definition expand (r : rect) (margin : Q) : rect :=
  from_xywh (min_x r - margin) (min_y r - margin) (sw (extent r) + 2 * margin) (sh (extent r) + 2 * margin).

(** geometry/mod.rs:206-213 *)
Record transform := Transform { ta : Q; tb : Q; tc : Q; td : Q; te : Q; tf : Q }.

(** geometry/mod.rs:216-233.  The cosine and the sine of the angle are given. *)
Definition identity : transform := Transform 1 0 0 1 0 0.
Definition translation (x y : Q) : transform := Transform 1 0 0 1 x y.
Definition scaling (x y : Q) : transform := Transform x 0 0 y 0 0.
Definition rotation (cos_a sin_a : Q) : transform := Transform cos_a sin_a (- sin_a) cos_a 0 0.

(** geometry/mod.rs:235-248 *)
Definition transform_point (t : transform) (p : point) : point :=
  Point (ta t * px p + tc t * py p + te t) (tb t * px p + td t * py p + tf t).
Definition compose (s o : transform) : transform :=
  Transform (ta s * ta o + tb s * tc o) (ta s * tb o + tb s * td o) (tc s * ta o + td s * tc o) (tc s * tb o + td s * td o)
    (te s * ta o + tf s * tc o + te o) (te s * tb o + tf s * td o + tf o).

(** layout/mod.rs:26-39, 92-97.  Node types are not modelled: rendering ignores them. *)
Record node := Node { n_id : nat; n_label : str; n_rect : rect }.
Record edge := Edge { e_from : nat; e_to : nat; e_points : list point; e_label : option str }.
Record layout := Layout { l_bounds : rect; l_nodes : list node; l_edges : list edge }.

(** layout/mod.rs:66-81 and render/mod.rs:320-333: the fold over all nodes; the first node replaces the infinities *)
Definition bounds_of (first : node) (rest : list node) : rect :=
  let r0 := n_rect first in
  let x0 := fold_left (fun m n => Qmin m (min_x (n_rect n))) rest (min_x r0) in
  let y0 := fold_left (fun m n => Qmin m (min_y (n_rect n))) rest (min_y r0) in
  let x1 := fold_left (fun m n => Qmax m (max_x (n_rect n))) rest (max_x r0) in
  let y1 := fold_left (fun m n => Qmax m (max_y (n_rect n))) rest (max_y r0) in
  from_xywh x0 y0 (x1 - x0) (y1 - y0).

(** geometry/mod.rs:35-39, 86-90, 198-202 *)
Definition default_rect : rect := Rect (Point 0 0) (Size 100 50).

(** layout/mod.rs:61-82 *)
Definition update_bounds (l : layout) : layout :=
  Layout (match l_nodes l with [] => default_rect | n :: r => bounds_of n r end) (l_nodes l) (l_edges l).

(** A hash table insertion: an entry with the same key is replaced in place. *)
Fixpoint put_node (n : node) (l : list node) : list node :=
  match l with
  | [] => [n]
  | m :: r => if (n_id m =? n_id n)%nat then n :: r else m :: put_node n r
  end.

(** layout/mod.rs:42-44, 46-59 *)
Definition new_layout : layout := Layout default_rect [] [].
Definition add_node (l : layout) (n : node) : layout := update_bounds (Layout (l_bounds l) (put_node n (l_nodes l)) (l_edges l)).
Definition add_edge (l : layout) (e : edge) : layout := Layout (l_bounds l) (l_nodes l) (l_edges l ++ [e]).

Definition get_node (l : list node) (id : nat) : option node := find (fun n => (n_id n =? id)%nat) l.

(** render/mod.rs:315-334 with the canvas size of the configuration *)
Definition calculate_bounds (canvas : size) (l : layout) : rect :=
  match l_nodes l with [] => Rect (Point 0 0) canvas | n :: r => bounds_of n r end.

(** render/mod.rs:141-148, 184: width and height of the canvas and the offset applied to everything drawn *)
Definition canvas_size (canvas : size) (padding : Q) (l : layout) : size :=
  let b := calculate_bounds canvas l in Size (sw (extent b) + 2 * padding) (sh (extent b) + 2 * padding).
Definition canvas_offset (canvas : size) (padding : Q) (l : layout) : point :=
  let b := calculate_bounds canvas l in Point (padding - px (origin b)) (padding - py (origin b)).

(** tree/mod.rs:21-28 without attributes and node type *)
Inductive vtree := VNode (id : nat) (label : str) (sz : option size) (children : list vtree).
Definition v_id (t : vtree) : nat := match t with VNode i _ _ _ => i end.
Definition v_label (t : vtree) : str := match t with VNode _ l _ _ => l end.
Definition v_size (t : vtree) : option size := match t with VNode _ _ s _ => s end.
Definition v_children (t : vtree) : list vtree := match t with VNode _ _ _ c => c end.

(** tree/mod.rs:426-432 without the unused subtree distance *)
Record tree_config := TreeConfig { tc_width : Q; tc_height : Q; tc_level : Q; tc_sibling : Q }.
(** tree/mod.rs:434-438 *)
Definition default_tree_config : tree_config := TreeConfig 100 40 80 20.

(** tree/mod.rs:301-303 *)
Definition node_size (c : tree_config) (t : vtree) : size :=
  match v_size t with Some s => s | None => Size (tc_width c) (tc_height c) end.

(** tree/mod.rs:452-460: the node table is built from identifier, label, position and size; a positioned node *)
Inductive placed := Placed (n : node) (width : Q) (children : list placed).
Definition p_node (p : placed) : node := match p with Placed n _ _ => n end.
Definition p_width (p : placed) : Q := match p with Placed _ w _ => w end.
Definition p_children (p : placed) : list placed := match p with Placed _ _ c => c end.

Definition Qsum (l : list Q) : Q := fold_right Qplus 0 l.

(** tree/mod.rs:367-371 *)
Definition compact_loop (c : tree_config) (rec : vtree -> Q -> Q -> placed) (y : Q) := fix loop (l : list vtree) (child_x : Q) : list placed :=
  match l with
  | [] => []
  | t :: r => let p := rec t child_x (y + tc_level c) in p :: loop r (child_x + p_width p + tc_sibling c)
  end.
(** tree/mod.rs:362-379 *)
Fixpoint compact (c : tree_config) (t : vtree) (x y : Q) : placed :=
  match t with
  | VNode id label _ children =>
      let s := node_size c t in
      let cs := (fix loop (l : list vtree) (child_x : Q) : list placed :=
        match l with
        | [] => []
        | t :: r => let p := compact c t child_x (y + tc_level c) in p :: loop r (child_x + p_width p + tc_sibling c)
        end) children x in
      let width := match cs with [] => sw s | _ => Qsum (map p_width cs) + inject_Z (Z.of_nat (length cs - 1)) * tc_sibling c end in
      let node_x := match cs with [] => x | _ => x + width / 2 - sw s / 2 end in
      Placed (Node id label (Rect (Point node_x y) s)) width cs
  end.

(** tree/mod.rs:404-410: insertions in this order *)
Fixpoint extract (p : placed) : list node :=
  match p with Placed n _ cs => n :: (fix each (l : list placed) : list node := match l with [] => [] | q :: r => extract q ++ each r end) cs end.

(** tree/mod.rs:413-422: edges without points *)
Fixpoint tree_edges (t : vtree) : list edge :=
  match t with
  | VNode id _ _ children =>
      (fix each (l : list vtree) : list edge :=
        match l with [] => [] | t :: r => Edge id (v_id t) [] None :: tree_edges t ++ each r end) children
  end.

(** tree/mod.rs:186-200, 249-264: the node table is filled, copied to the layout, then edges are added.  The
    order in which the table is copied only affects the order of the layout's own table. *)
Definition layout_with (nodes : list node) (edges : list edge) : layout :=
  fold_left add_edge edges (fold_left add_node nodes new_layout).

(** tree/mod.rs:240-264 *)
Definition compact_layout (c : tree_config) (t : vtree) : layout :=
  layout_with (extract (compact c t 0 0)) (tree_edges t).

(** tree/mod.rs:305-313.  The table of level widths is a function, 0 for missing levels. *)
Definition levels := nat -> Q.
Definition set_level (m : levels) (i : nat) (v : Q) : levels := fun j => if (j =? i)%nat then v else m j.
Fixpoint level_widths (c : tree_config) (t : vtree) (level : nat) (m : levels) : levels :=
  match t with
  | VNode _ _ _ children =>
      (fix each (l : list vtree) (m : levels) : levels := match l with [] => m | t :: r => each r (level_widths c t (S level) m) end)
        children (set_level m level (m level + sw (node_size c t) + tc_sibling c))
  end.

(** tree/mod.rs:315-337.  The table of current positions is a function giving [None] for missing levels. *)
Definition current := nat -> option Q.
Definition set_current (m : current) (i : nat) (v : Q) : current := fun j => if (j =? i)%nat then Some v else m j.
Fixpoint layered (c : tree_config) (widths : levels) (t : vtree) (level : nat) (cur : current) : list node * current :=
  match t with
  | VNode id label _ children =>
      let s := node_size c t in
      let current_x := match cur level with Some v => v | None => - widths level / 2 end in
      let x := if (level =? 0)%nat then 0 else current_x + sw s / 2 in
      let y := inject_Z (Z.of_nat level) * tc_level c in
      let '(rest, cur') :=
        (fix each (l : list vtree) (cur : current) : list node * current :=
          match l with
          | [] => ([], cur)
          | t :: r => let '(a, cur1) := layered c widths t (S level) cur in let '(b, cur2) := each r cur1 in (a ++ b, cur2)
          end) children (set_current cur level (current_x + sw s + tc_sibling c)) in
      (Node id label (Rect (Point x y) s) :: rest, cur')
  end.

(** tree/mod.rs:175-203 *)
Definition layered_layout (c : tree_config) (t : vtree) : layout :=
  let widths := level_widths c t 0 (fun _ => 0) in
  layout_with (fst (layered c widths t 0 (fun _ => None))) (tree_edges t).

(** graph/mod.rs:559-573: the parts used by the grid and the layers *)
Record graph_config := GraphConfig { gc_width : Q; gc_height : Q; gc_spacing : Q; gc_layer : Q }.
(** graph/mod.rs:575-579 *)
Definition default_graph_config : graph_config := GraphConfig 80 40 20 100.

(** graph/mod.rs:14-21: identifier, label and size *)
Record vertex := Vertex { vx_id : nat; vx_label : str; vx_size : option size }.
Definition vertex_size (c : graph_config) (v : vertex) : size := match vx_size v with Some s => s | None => Size (gc_width c) (gc_height c) end.

(** graph/mod.rs:463: the least number of columns whose square is not below the count.  (Square roots of numbers up to
    2^52 are rounded correctly, so the ceiling is exact.) *)
Definition columns (n : nat) : nat := let r := Nat.sqrt n in if (r * r =? n)%nat then r else S r.

(** graph/mod.rs:466-480 *)
Fixpoint grid (c : graph_config) (cols i : nat) (vs : list vertex) : list node :=
  match vs with
  | [] => []
  | v :: r =>
      let x := inject_Z (Z.of_nat (i mod cols)) * (gc_width c + gc_spacing c) in
      let y := inject_Z (Z.of_nat (i / cols)) * (gc_height c + gc_spacing c) in
      Node (vx_id v) (vx_label v) (Rect (Point x y) (vertex_size c v)) :: grid c cols (S i) r
  end.

(** graph/mod.rs:482-488 (also 363-369, 400-406, 443-449): edges between placed nodes, from centre to centre *)
Definition route (l : layout) (e : nat * nat) : layout :=
  match get_node (l_nodes l) (fst e), get_node (l_nodes l) (snd e) with
  | Some a, Some b => add_edge l (Edge (fst e) (snd e) [center (n_rect a); center (n_rect b)] None)
  | _, _ => l
  end.

(** graph/mod.rs:455-491 *)
Definition grid_layout (c : graph_config) (vs : list vertex) (es : list (nat * nat)) : layout :=
  match vs with
  | [] => new_layout
  | _ => fold_left route es (fold_left add_node (grid c (columns (length vs)) 0 vs) new_layout)
  end.

(** graph/mod.rs:428-440: one layer *)
Fixpoint layer_row (c : graph_config) (vs : list vertex) (y start_x : Q) (i : nat) (layer : list nat) : option (list node) :=
  match layer with
  | [] => Some []
  | id :: r =>
      match find (fun v => (vx_id v =? id)%nat) vs, layer_row c vs y start_x (S i) r with
      | Some v, Some ns =>
          let x := start_x + inject_Z (Z.of_nat i) * (gc_width c + gc_spacing c) in
          Some (Node (vx_id v) (vx_label v) (Rect (Point x y) (vertex_size c v)) :: ns)
      | _, _ => None
      end
  end.
(** graph/mod.rs:423-441 *)
Fixpoint layer_rows (c : graph_config) (vs : list vertex) (i : nat) (layers : list (list nat)) : option (list node) :=
  match layers with
  | [] => Some []
  | layer :: r =>
      let y := inject_Z (Z.of_nat i) * gc_layer c in
      let width := inject_Z (Z.of_nat (length layer)) * (gc_width c + gc_spacing c) in
      match layer_row c vs y (- width / 2) 0 layer, layer_rows c vs (S i) r with
      | Some a, Some b => Some (a ++ b)
      | _, _ => None
      end
  end.
(** graph/mod.rs:412-452 *)
Definition hierarchical_graph (c : graph_config) (vs : list vertex) (es : list (nat * nat)) : option layout :=
  match vs with
  | [] => Some new_layout
  | _ =>
      match topological_layers (Graph (map vx_id vs) es true) with
      | Some layers =>
          match layer_rows c vs 0 layers with
          | Some ns => Some (fold_left route es (fold_left add_node ns new_layout))
          | None => None
          end
      | None => None
      end
  end.

(** layout/mod.rs:9-16: the parts used *)
Record layout_config := LayoutConfig { lc_horizontal : Q; lc_vertical : Q; lc_margin : Q }.
(** layout/mod.rs:18-22 *)
Definition default_layout_config : layout_config := LayoutConfig 40 30 20.

(** layout/mod.rs:122-127 *)
Record item := Item { i_id : nat; i_size : size }.

(** layout/mod.rs:376-381 *)
Inductive hierarchy := Hier (id : nat) (sz : size) (children : list hierarchy).
Definition h_size (h : hierarchy) : size := match h with Hier _ s _ => s end.

(** Collecting results, none if one fails. *)
Fixpoint traverse {A B} (f : A -> option B) (l : list A) : option (list B) :=
  match l with
  | [] => Some []
  | a :: r => match f a, traverse f r with Some b, Some bs => Some (b :: bs) | _, _ => None end
  end.

(** layout/mod.rs:404-409.  [None]: the node is unknown (a panic) or the recursion is deeper than the fuel. *)
Fixpoint build_node (fuel : nat) (items : list item) (es : list (nat * nat)) (id : nat) : option hierarchy :=
  match fuel with
  | O => None
  | S f =>
      match find (fun n => (i_id n =? id)%nat) items with
      | None => None
      | Some n => option_map (Hier id (i_size n)) (traverse (build_node f items es) (map snd (filter (fun e => (fst e =? id)%nat) es)))
      end
  end.
(** layout/mod.rs:384-402 *)
Definition build_hierarchy (fuel : nat) (items : list item) (es : list (nat * nat)) : option (list hierarchy) :=
  traverse (fun n => build_node fuel items es (i_id n)) (filter (fun n => negb (mem (i_id n) (map snd es))) items).

(** layout/mod.rs:423-434, returning the insertions and the next y *)
Fixpoint top_down (c : layout_config) (h : hierarchy) (x y : Q) : list node * Q :=
  match h with
  | Hier id s children =>
      let '(rest, y') :=
        (fix each (l : list hierarchy) (child_x y : Q) : list node * Q :=
          match l with
          | [] => ([], y)
          | h :: r =>
              let '(a, y1) := top_down c h child_x y in
              let '(b, y2) := each r (child_x + sw (h_size h) + lc_horizontal c) y1 in (a ++ b, y2)
          end) children (x + lc_horizontal c) (y + (sh s + lc_vertical c)) in
      (Node id [] (Rect (Point x y) s) :: rest, y')
  end.
(** layout/mod.rs:411-421 *)
Fixpoint top_down_all (c : layout_config) (hs : list hierarchy) (y : Q) : list node * Q :=
  match hs with
  | [] => ([], y)
  | h :: r => let '(a, y1) := top_down c h (lc_margin c) y in let '(b, y2) := top_down_all c r (y1 + lc_vertical c) in (a ++ b, y2)
  end.

(** layout/mod.rs:204-234, for the directions TopDown and BottomUp, which are the same (461-464); the labels, which are
    copies of the identifiers, are left empty *)
Definition hierarchical_engine (fuel : nat) (c : layout_config) (items : list item) (es : list (nat * nat)) : option layout :=
  match items with
  | [] => Some new_layout
  | _ =>
      match build_hierarchy fuel items es with
      | Some hs => Some (fold_left route es (fold_left add_node (fst (top_down_all c hs (lc_margin c))) new_layout))
      | None => None
      end
  end.
