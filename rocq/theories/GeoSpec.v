(** Spec notions for the geometry and the layouts. *)
From Verif Require Import Base Utf8 GeoModel.
Require Import QArith.
Open Scope Q_scope.

(** Points of a rectangle, and points off its border. *)
Definition inside (r : rect) (p : point) : Prop :=
  px (origin r) <= px p <= px (origin r) + sw (extent r) /\ py (origin r) <= py p <= py (origin r) + sh (extent r).
Definition interior (r : rect) (p : point) : Prop :=
  px (origin r) < px p < px (origin r) + sw (extent r) /\ py (origin r) < py p < py (origin r) + sh (extent r).
Definition overlap (r s : rect) : Prop := exists p, interior r p /\ interior s p.
Definition within (r s : rect) : Prop := forall p, inside r p -> inside s p.

(** Rectangles with sides that are not negative. *)
Definition proper_size (s : size) : Prop := 0 <= sw s /\ 0 <= sh s.
Definition proper (r : rect) : Prop := proper_size (extent r).

Definition point_eq (p q : point) : Prop := px p == px q /\ py p == py q.
Definition transform_eq (s t : transform) : Prop :=
  ta s == ta t /\ tb s == tb t /\ tc s == tc t /\ td s == td t /\ te s == te t /\ tf s == tf t.

(** All nodes of a tree, first the root. *)
Fixpoint nodes_of (t : vtree) : list vtree :=
  match t with VNode _ _ _ cs => t :: (fix each (l : list vtree) : list vtree := match l with [] => [] | c :: r => nodes_of c ++ each r end) cs end.
Definition ids (t : vtree) : list nat := map v_id (nodes_of t).

(** The width and height a node asks for. *)
Definition wide (c : tree_config) (t : vtree) : Q := match v_size t with Some s => sw s | None => tc_width c end.
Definition tall (c : tree_config) (t : vtree) : Q := match v_size t with Some s => sh s | None => tc_height c end.
Fixpoint total (l : list Q) : Q := match l with [] => 0 | x :: r => x + total r end.

(** No parent is wider than the row of its children. *)
Definition snug (c : tree_config) (t : vtree) : Prop := forall s, In s (nodes_of t) -> v_children s <> [] ->
  wide c s <= total (map (wide c) (v_children s)) + inject_Z (Z.of_nat (length (v_children s) - 1)) * tc_sibling c.

(** Where a layout puts a node. *)
Definition placed_at (l : layout) (id : nat) (r : rect) : Prop := exists n, In n (l_nodes l) /\ n_id n = id /\ n_rect n = r.
