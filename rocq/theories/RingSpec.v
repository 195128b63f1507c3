(** What the layouts by angles and by forces are compared with. *)
From Verif Require Import Base RingModel.
Require Import Reals.
Open Scope R_scope.

(** Two places have a distance. *)
Definition far (p q : spot) (d : R) : Prop := 0 <= d /\ (x_of p - x_of q) * (x_of p - x_of q) + (y_of p - y_of q) * (y_of p - y_of q) = d * d.
Definition middle (b : box) : spot := Spot (x_of (corner b) + wide (sides b) / 2) (y_of (corner b) + high (sides b) / 2).
(** Points of a rectangle that are not on its border, rectangles that have one in common *)
Definition interior (b : box) (p : spot) : Prop :=
  x_of (corner b) < x_of p < x_of (corner b) + wide (sides b) /\ y_of (corner b) < y_of p < y_of (corner b) + high (sides b).
Definition overlap (a b : box) : Prop := exists p, interior a p /\ interior b p.

(** The nodes of a tree, first the root, and how deep they are *)
Fixpoint nodes_of (t : rtree) : list rtree :=
  match t with RTree _ _ cs => t :: (fix each (l : list rtree) : list rtree := match l with [] => [] | c :: r => nodes_of c ++ each r end) cs end.
Definition tree_ids (t : rtree) : list nat := map t_id (nodes_of t).
Inductive below : rtree -> nat -> rtree -> Prop :=
| Here t : below t 0 t
| Down t c k s : In c (t_children t) -> below c k s -> below t (S k) s.

(** A node of the given size, or of the usual one if none is given *)
Definition sized (usual : dims) (given : option dims) (b : body) : Prop := given = Some (sides (b_box b)) \/ given = None /\ sides (b_box b) = usual.

(** Where the node of an identifier is *)
Definition sits_at (l : list body) (id : nat) (p : spot) : Prop := exists b, In b l /\ b_id b = id /\ middle (b_box b) = p.
(** The edges with two known ends, drawn between the middles of these, in order *)
Inductive drawing (l : list body) : list (nat * nat) -> list drawn -> Prop :=
| DrawNil : drawing l [] []
| DrawEdge a b p q es ds : sits_at l a p -> sits_at l b q -> drawing l es ds -> drawing l ((a, b) :: es) (Drawn a b [p; q] :: ds)
| DrawLess a b es ds : ~ In a (map b_id l) \/ ~ In b (map b_id l) -> drawing l es ds -> drawing l ((a, b) :: es) ds.
(** The edges of a tree *)
Definition tree_edges (t : rtree) : list (nat * nat) := flat_map (fun s => map (fun c => (t_id s, t_id c)) (t_children s)) (nodes_of t).

(** Sums *)
Definition sum (l : list R) : R := fold_right Rplus 0 l.
