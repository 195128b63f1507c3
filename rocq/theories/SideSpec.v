(** What the directions of the hierarchical engine should mean. *)
From Verif Require Import Base GeoModel SideModel.
Require Import QArith.
Open Scope Q_scope.

(** The node of an edge that is reached lies on this side of the other one, with the spacing between them. *)
Definition after (d : direction) (c : layout_config) (a b : rect) : Prop :=
  match d with
  | TopDown => py (origin a) + sh (extent a) + lc_vertical c <= py (origin b)
  | BottomUp => py (origin b) + sh (extent b) + lc_vertical c <= py (origin a)
  | LeftRight => px (origin a) + sw (extent a) + lc_horizontal c <= px (origin b)
  | RightLeft => px (origin b) + sw (extent b) + lc_horizontal c <= px (origin a)
  end.
(** The direction that is drawn *)
Definition drawn_as (d : direction) : direction := match d with BottomUp => TopDown | RightLeft => LeftRight | d => d end.
Definition room (d : direction) (c : layout_config) : Q := match drawn_as d with TopDown => lc_vertical c | _ => lc_horizontal c end.
Definition thick (d : direction) (s : size) : Q := match drawn_as d with TopDown => sh s | _ => sw s end.
