(** Spec notions for the SVG renderer. *)
From Verif Require Import Base Utf8 HiSpec GeoModel.
Require Import QArith.

(** Text that opens and closes no tag, and text that starts no entity either. *)
Definition plain (s : list Z) : Prop := ~ In 60%Z s /\ ~ In 62%Z s.
Definition harmless (s : list Z) : Prop := plain s /\ ~ In 38%Z s.

(** An attribute that occurs twice in one tag, which XML forbids. *)
Definition repeated_attribute (out key : list Z) : Prop :=
  let named v := [32%Z] ++ key ++ [61%Z; 34%Z] ++ v ++ [34%Z] in
  exists a x m y b, out = a ++ named x ++ m ++ named y ++ b /\ plain x /\ plain m /\ plain y.

(** A line from one point to another. *)
Definition draws_line (num : Q -> list Z) (out : list Z) (p q : point) : Prop :=
  exists a b, out = a ++ lit "<path d=""M " ++ num (px p) ++ lit " " ++ num (py p) ++ lit " L " ++ num (px q) ++ lit " " ++ num (py q) ++ lit """" ++ b.

(** The attributes of a tag as they are written. *)
Definition attributes (kvs : list (list Z * list Z)) : list Z :=
  flat_map (fun kv => [32%Z] ++ fst kv ++ [61%Z; 34%Z] ++ snd kv ++ [34%Z]) kvs.
