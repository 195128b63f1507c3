(** Model of the layouts of projects/oak-visualize/src that place nodes by angles or by forces: the radial and the balloon layout
    of trees (tree/mod.rs), the circular, the force-directed and the organic layout of graphs (graph/mod.rs) and the
    force-directed engine (layout/mod.rs).  Numbers are real numbers, without rounding; where the code divides zero by zero
    the result of the model is [None].  Identifiers are natural numbers, since they are only compared.  Labels, types of nodes
    and the bounds of the layout are left out.  A node table is the list of its entries in the order of iteration, which is arbitrary. *)
From Verif Require Import Base.
Require Import Reals.
Open Scope R_scope.

(** geometry/mod.rs:7-10, 41-55, 59-62, 96-99 *)
Record spot := Spot { x_of : R; y_of : R }.
Record dims := Dims { wide : R; high : R }.
Record box := Box { corner : spot; sides : dims }.
Definition spot_add (p q : spot) : spot := Spot (x_of p + x_of q) (y_of p + y_of q).
Definition spot_sub (p q : spot) : spot := Spot (x_of p - x_of q) (y_of p - y_of q).
(** geometry/mod.rs:20-24 *)
Definition distance_to (p q : spot) : R :=
  let dx := x_of p - x_of q in
  let dy := y_of p - y_of q in
  sqrt (dx * dx + dy * dy).
(** geometry/mod.rs:154-156 *)
Definition box_center (b : box) : spot := Spot (x_of (corner b) + wide (sides b) / 2) (y_of (corner b) + high (sides b) / 2).

(** layout/mod.rs:26-39, 92-97: the parts in use *)
Record body := Body { b_id : nat; b_box : box }.
Record drawn := Drawn { d_from : nat; d_to : nat; d_points : list spot }.
Record plan := Plan { bodies : list body; lines : list drawn }.
(** layout/mod.rs:46-55: a hash table insertion *)
Fixpoint put (b : body) (l : list body) : list body :=
  match l with
  | [] => [b]
  | c :: r => if (b_id c =? b_id b)%nat then b :: r else c :: put b r
  end.
Definition table (l : list body) : list body := fold_left (fun t b => put b t) l [].
Definition get (l : list body) (id : nat) : option body := find (fun b => (b_id b =? id)%nat) l.
(** tree/mod.rs:223, 284, graph/mod.rs:352, 390, layout/mod.rs:349: the rectangle around a position *)
Definition around (p : spot) (s : dims) : box := Box (Spot (x_of p - wide s / 2) (y_of p - high s / 2)) s.
(** tree/mod.rs:345, 390, graph/mod.rs:279, 386: a place on a circle *)
Definition on_circle (center : spot) (radius angle : R) : spot := Spot (x_of center + radius * cos angle) (y_of center + radius * sin angle).

(** ** Trees *)

(** tree/mod.rs:21-28 *)
Inductive rtree := RTree (id : nat) (size : option dims) (children : list rtree).
Definition t_id (t : rtree) : nat := match t with RTree i _ _ => i end.
Definition t_size (t : rtree) : option dims := match t with RTree _ s _ => s end.
Definition t_children (t : rtree) : list rtree := match t with RTree _ _ c => c end.
(** tree/mod.rs:426-438 *)
Record ring_config := RingConfig { rc_width : R; rc_height : R; rc_level : R }.
Definition default_ring_config : ring_config := RingConfig 100 40 80.
(** tree/mod.rs:301-303 *)
Definition tree_size (c : ring_config) (t : rtree) : dims := match t_size t with Some s => s | None => Dims (rc_width c) (rc_height c) end.
Definition tree_body (c : ring_config) (t : rtree) (p : spot) : body := Body (t_id t) (around p (tree_size c t)).

(** tree/mod.rs:339-360 [position_radial_children] of the children of [t].  The number 0.8 is 4/5. *)
Fixpoint radial_children (c : ring_config) (t : rtree) (center : spot) (radius start_angle angle_span : R) : list body :=
  match t with
  | RTree _ _ children =>
      let angle_step := angle_span / INR (length children) in
      (fix each (i : nat) (l : list rtree) : list body :=
        match l with
        | [] => []
        | child :: r =>
            let angle := start_angle + INR i * angle_step + angle_step / 2 in
            let child_pos := on_circle center radius angle in
            let child_angle_span := angle_step * (4 / 5) in
            tree_body c child child_pos ::
            radial_children c child child_pos (radius + rc_level c) (angle - child_angle_span / 2) child_angle_span ++ each (S i) r
        end) 0%nat children
  end.
(** tree/mod.rs:381-402 [position_balloon_children] of the children of [t].  The number 0.6 is 3/5. *)
Fixpoint balloon_children (c : ring_config) (t : rtree) (center : spot) (radius : R) : list body :=
  match t with
  | RTree _ _ children =>
      let angle_step := 2 * PI / INR (length children) in
      (fix each (i : nat) (l : list rtree) : list body :=
        match l with
        | [] => []
        | child :: r =>
            let child_pos := on_circle center radius (INR i * angle_step) in
            tree_body c child child_pos :: balloon_children c child child_pos (radius * (3 / 5)) ++ each (S i) r
        end) 0%nat children
  end.
(** tree/mod.rs:413-422 *)
Fixpoint tree_lines (t : rtree) : list drawn :=
  match t with
  | RTree id _ children => (fix each (l : list rtree) : list drawn := match l with [] => [] | c :: r => Drawn id (t_id c) [] :: tree_lines c ++ each r end) children
  end.
(** tree/mod.rs:206-237, 267-298 *)
Definition radial_layout (c : ring_config) (t : rtree) : plan :=
  Plan (table (tree_body c t (Spot 0 0) :: radial_children c t (Spot 0 0) (rc_level c) 0 (2 * PI))) (tree_lines t).
Definition balloon_layout (c : ring_config) (t : rtree) : plan :=
  Plan (table (tree_body c t (Spot 0 0) :: balloon_children c t (Spot 0 0) (rc_level c))) (tree_lines t).

(** ** Graphs *)

(** graph/mod.rs:14-21, 559-579: the parts in use; the edges are graph/mod.rs:48-63 *)
Record vert := Vert { v_id : nat; v_size : option dims }.
Record arc := Arc { a_from : nat; a_to : nat; a_weight : R }.
Record force_config := ForceConfig
  { fc_width : R; fc_height : R; fc_radius : R; fc_iterations : nat; fc_spring : R; fc_repulsion : R; fc_damping : R; fc_velocity : R; fc_length : R }.
Definition default_force_config : force_config := ForceConfig 80 40 200 100 (1 / 10) 1000 (9 / 10) 10 100.
Definition vert_body (c : force_config) (v : vert) (p : spot) : body :=
  Body (v_id v) (around p match v_size v with Some s => s | None => Dims (fc_width c) (fc_height c) end).
(** graph/mod.rs:363-369, 400-406: edges between placed nodes, from centre to centre *)
Definition joined (l : list body) (e : nat * nat) : list drawn :=
  match get l (fst e), get l (snd e) with
  | Some a, Some b => [Drawn (fst e) (snd e) [box_center (b_box a); box_center (b_box b)]]
  | _, _ => []
  end.
Definition arc_ends (a : arc) : nat * nat := (a_from a, a_to a).

(** graph/mod.rs:384-397 *)
Fixpoint circle (c : force_config) (angle_step : R) (i : nat) (vs : list vert) : list body :=
  match vs with
  | [] => []
  | v :: r => vert_body c v (Spot (fc_radius c * cos (INR i * angle_step)) (fc_radius c * sin (INR i * angle_step))) :: circle c angle_step (S i) r
  end.
(** graph/mod.rs:375-409 *)
Definition circular_layout (c : force_config) (vs : list vert) (es : list arc) : plan :=
  match vs with
  | [] => Plan [] []
  | _ =>
      let l := table (circle c (2 * PI / INR (length vs)) 0 vs) in
      Plan l (flat_map (joined l) (map arc_ends es))
  end.

(** Position and velocity of a node *)
Record mover := Mover { m_id : nat; m_pos : spot; m_vel : spot }.
Definition mover_at (l : list mover) (id : nat) : option spot := option_map m_pos (find (fun m => (m_id m =? id)%nat) l).
(** The table of forces: [forces.get_mut(id)] and an addition *)
Definition forces := nat -> spot.
Definition no_force : forces := fun _ => Spot 0 0.
Definition push (id : nat) (p : spot) (f : forces) : forces := fun j => if (j =? id)%nat then spot_add (f j) p else f j.
Definition pull (id : nat) (p : spot) (f : forces) : forces := fun j => if (j =? id)%nat then spot_sub (f j) p else f j.
(** graph/mod.rs:276-281, layout/mod.rs:287-292 *)
Fixpoint first_spots (n i : nat) (ids : list nat) : list mover :=
  match ids with
  | [] => []
  | id :: r =>
      let angle := 2 * PI * INR i / INR n in
      Mover id (Spot (100 * cos angle) (100 * sin angle)) (Spot 0 0) :: first_spots n (S i) r
  end.
(** graph/mod.rs:299-308, layout/mod.rs:309-318 *)
Definition repel (strength : R) (a b : mover) (f : forces) : forces :=
  let diff := spot_sub (m_pos a) (m_pos b) in
  let distance := Rmax (distance_to (m_pos a) (m_pos b)) 1 in
  let force_magnitude := strength / (distance * distance) in
  let force := Spot (x_of diff / distance * force_magnitude) (y_of diff / distance * force_magnitude) in
  pull (m_id b) force (push (m_id a) force f).
(** graph/mod.rs:292-310, layout/mod.rs:303-320 *)
Fixpoint repel_all (strength : R) (l : list mover) (f : forces) : forces :=
  match l with
  | [] => f
  | a :: r => repel_all strength r (fold_left (fun f b => repel strength a b f) r f)
  end.
(** graph/mod.rs:318-325, layout/mod.rs:328-333: the force of an edge, by its length and magnitude *)
Definition attract (from to : nat) (p q : spot) (force_magnitude : R) (f : forces) : forces :=
  let diff := spot_sub q p in
  let distance := distance_to p q in
  let force := Spot (x_of diff / distance * force_magnitude) (y_of diff / distance * force_magnitude) in
  pull to force (push from force f).
(** graph/mod.rs:313-328 *)
Definition arc_force (c : force_config) (l : list mover) (f : forces) (a : arc) : forces :=
  match mover_at l (a_from a), mover_at l (a_to a) with
  | Some p, Some q =>
      let distance := distance_to p q in
      if Rlt_dec 0 distance then attract (a_from a) (a_to a) p q (fc_spring c * (distance - fc_length c) * a_weight a) f else f
  | _, _ => f
  end.
(** graph/mod.rs:331-345 *)
Definition move (c : force_config) (f : forces) (m : mover) : mover :=
  let v := Spot (x_of (m_vel m) * fc_damping c + x_of (f (m_id m))) (y_of (m_vel m) * fc_damping c + y_of (f (m_id m))) in
  let speed := sqrt (x_of v * x_of v + y_of v * y_of v) in
  let v := if Rlt_dec (fc_velocity c) speed then Spot (x_of v * (fc_velocity c / speed)) (y_of v * (fc_velocity c / speed)) else v in
  Mover (m_id m) (spot_add (m_pos m) v) v.
(** graph/mod.rs:284-346: one iteration *)
Definition force_round (c : force_config) (es : list arc) (l : list mover) : list mover :=
  let f := fold_left (arc_force c l) es (repel_all (fc_repulsion c) l no_force) in
  map (move c f) l.
(** graph/mod.rs:265-372 *)
Definition force_layout (c : force_config) (vs : list vert) (es : list arc) : plan :=
  match vs with
  | [] => Plan [] []
  | _ =>
      let l := Nat.iter (fc_iterations c) (force_round c es) (first_spots (length vs) 0 (map v_id vs)) in
      let t := table (map (fun vm => vert_body c (fst vm) (m_pos (snd vm))) (combine vs l)) in
      Plan t (flat_map (joined t) (map arc_ends es))
  end.
(** graph/mod.rs:494-504 *)
Definition organic_layout (c : force_config) (vs : list vert) (es : list arc) : plan :=
  force_layout (ForceConfig (fc_width c) (fc_height c) (fc_radius c) (fc_iterations c) (fc_spring c * (1 / 2)) (fc_repulsion c * (3 / 2)) (95 / 100) (fc_velocity c) (fc_length c)) vs es.

(** ** The force-directed engine *)

(** layout/mod.rs:122-127, 237-248 *)
Record thing := Thing { g_id : nat; g_size : dims }.
Record engine := Engine { e_iterations : nat; e_spring : R; e_repulsion : R; e_damping : R }.
Definition default_engine : engine := Engine 100 (1 / 10) 1000 (9 / 10).
(** layout/mod.rs:323-335.  [None]: the distance is zero, and zero is divided by zero *)
Definition edge_force (e : engine) (ideal : R) (l : list mover) (f : option forces) (a : nat * nat) : option forces :=
  match f with
  | None => None
  | Some f =>
      match mover_at l (fst a), mover_at l (snd a) with
      | Some p, Some q =>
          let distance := distance_to p q in
          if Req_EM_T distance 0 then None else Some (attract (fst a) (snd a) p q (e_spring e * (distance - ideal)) f)
      | _, _ => Some f
      end
  end.
(** layout/mod.rs:338-343 *)
Definition drift (e : engine) (f : forces) (m : mover) : mover :=
  let v := Spot (x_of (m_vel m) * e_damping e + x_of (f (m_id m))) (y_of (m_vel m) * e_damping e + y_of (f (m_id m))) in
  Mover (m_id m) (spot_add (m_pos m) v) v.
(** layout/mod.rs:295-344: one iteration *)
Definition engine_round (e : engine) (ideal : R) (es : list (nat * nat)) (l : option (list mover)) : option (list mover) :=
  match l with
  | None => None
  | Some l => option_map (fun f => map (drift e f) l) (fold_left (edge_force e ideal l) es (Some (repel_all (e_repulsion e) l no_force)))
  end.
(** layout/mod.rs:276-364 for nodes with different identifiers; [ideal] is the horizontal spacing of the configuration *)
Definition force_engine (e : engine) (ideal : R) (gs : list thing) (es : list (nat * nat)) : option plan :=
  match gs with
  | [] => Some (Plan [] [])
  | _ =>
      option_map (fun l =>
        let t := table (map (fun gm => Body (g_id (fst gm)) (around (m_pos (snd gm)) (g_size (fst gm)))) (combine gs l)) in
        Plan t (flat_map (joined t) es))
      (Nat.iter (e_iterations e) (engine_round e ideal es) (Some (first_spots (length gs) 0 (map g_id gs))))
  end.
