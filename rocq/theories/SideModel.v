(** Model of the directions of the hierarchical engine in projects/oak-visualize/src/layout/mod.rs.  The simplifications are
    those of GeoModel: exact numbers, identifiers as numbers, tables as lists. *)
From Verif Require Import Base GeoModel.
Require Import QArith.
Open Scope Q_scope.

(** layout/mod.rs:448-459, returning the insertions and the next x *)
Fixpoint left_right (c : layout_config) (h : hierarchy) (x y : Q) : list node * Q :=
  match h with
  | Hier id s children =>
      let '(rest, x') :=
        (fix each (l : list hierarchy) (child_y x : Q) : list node * Q :=
          match l with
          | [] => ([], x)
          | h :: r =>
              let '(a, x1) := left_right c h x child_y in
              let '(b, x2) := each r (child_y + sh (h_size h) + lc_vertical c) x1 in (a ++ b, x2)
          end) children (y + lc_vertical c) (x + (sw s + lc_horizontal c)) in
      (Node id [] (Rect (Point x y) s) :: rest, x')
  end.
(** layout/mod.rs:436-446 *)
Fixpoint left_right_all (c : layout_config) (hs : list hierarchy) (x : Q) : list node * Q :=
  match hs with
  | [] => ([], x)
  | h :: r => let '(a, x1) := left_right c h x (lc_margin c) in let '(b, x2) := left_right_all c r (x1 + lc_horizontal c) in (a ++ b, x2)
  end.
(** layout/mod.rs:368-373 *)
Inductive direction := TopDown | BottomUp | LeftRight | RightLeft.
(** layout/mod.rs:216-221, 461-464, 466-469 *)
Definition placed_in (d : direction) (c : layout_config) (hs : list hierarchy) : list node :=
  match d with
  | TopDown | BottomUp => fst (top_down_all c hs (lc_margin c))
  | LeftRight | RightLeft => fst (left_right_all c hs (lc_margin c))
  end.
(** layout/mod.rs:204-234 *)
Definition directed_engine (d : direction) (fuel : nat) (c : layout_config) (items : list item) (es : list (nat * nat)) : option layout :=
  match items with
  | [] => Some new_layout
  | _ =>
      match build_hierarchy fuel items es with
      | Some hs => Some (fold_left route es (fold_left add_node (placed_in d c hs) new_layout))
      | None => None
      end
  end.
