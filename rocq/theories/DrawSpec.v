(** What a drawing of a syntax tree is. *)
From Verif Require Import Base Utf8 TreeModel GeoModel.

(** A drawing that shows a syntax tree: the same shape, each kind as its label. *)
Inductive shows (label : nat -> str) : green -> vtree -> Prop :=
| ShowLeaf k n m i : shows label (GLeaf k n m) (VNode i (label k) None [])
| ShowNode k n ch i cs : Forall2 (shows label) ch cs -> shows label (GNode k n ch) (VNode i (label k) None cs).

Definition kind_of (t : green) : nat := match t with GLeaf k _ _ => k | GNode k _ _ => k end.
Definition parts (t : green) : list green := match t with GLeaf _ _ _ => [] | GNode _ _ ch => ch end.

(** All subtrees in the order of the text, parents first. *)
Inductive in_order : green -> list green -> Prop :=
| InOrder t ls : Forall2 in_order (parts t) ls -> in_order t (t :: concat ls).

(** [s] is [d] steps below [t]. *)
Inductive below : nat -> green -> green -> Prop :=
| Below0 t : below 0 t t
| BelowS d t c s : In c (parts t) -> below d c s -> below (S d) t s.
