(** Specification of trees: text width and document order, defined from the leaves
    alone, without the stored lengths. *)
From Verif Require Import Base TreeModel.

Fixpoint width (t : green) : nat :=
  match t with
  | GLeaf _ n _ => n
  | GNode _ _ ch => list_sum (map width ch)
  end.

Fixpoint size (t : green) : nat :=
  match t with
  | GLeaf _ _ _ => 1
  | GNode _ _ ch => S (list_sum (map size ch))
  end.

Fixpoint depth (t : green) : nat :=
  match t with
  | GLeaf _ _ _ => 1
  | GNode _ _ ch => S (list_max (map depth ch))
  end.

(** Trees obtained with the public constructors. *)
Inductive built : green -> Prop :=
| BLeaf k n m : built (GLeaf k n m)
| BNode k ch t : Forall built ch -> new_node k ch = Some t -> built t.

(** Places elements one after the other. *)
Fixpoint lay {A} (f : green -> nat -> list A) (off : nat) (ch : list green) : list A :=
  match ch with
  | [] => []
  | c :: r => f c off ++ lay f (off + width c) r
  end.

(** Every element with its absolute offset, in document order (parents first). *)
Fixpoint elements (t : green) (off : nat) : list (green * nat) :=
  (t, off) ::
  match t with
  | GLeaf _ _ _ => []
  | GNode _ _ ch =>
      (fix go off ch := match ch with
                        | [] => []
                        | c :: r => elements c off ++ go (off + width c) r
                        end) off ch
  end.

(** The leaves with their spans, in document order. *)
Fixpoint leaves (t : green) (off : nat) : list (nat * nat * nat) :=
  match t with
  | GLeaf k n _ => [(k, off, off + n)]
  | GNode _ _ ch =>
      (fix go off ch := match ch with
                        | [] => []
                        | c :: r => leaves c off ++ go (off + width c) r
                        end) off ch
  end.

(** Spans [a..b), [b..c), ... from [a] to [e] without gap or overlap. *)
Inductive tiles {A} (span : A -> nat * nat) : nat -> list A -> nat -> Prop :=
| TNil a : tiles span a [] a
| TCons a x l e : fst (span x) = a -> a <= snd (span x) -> tiles span (snd (span x)) l e ->
    tiles span a (x :: l) e.

Definition leaf_span (l : nat * nat * nat) : nat * nat := (snd (fst l), snd l).

(** Where a cursor may stand: at the root, or at a child of a node where a cursor
    may stand; the offset is that of the child. *)
Inductive at_place (root : green) : tcursor -> Prop :=
| PRoot : at_place root (tc_new root)
| PChild k n ch i c off st :
    at_place root (TCursor (GNode k n ch) off st) -> nth_error ch i = Some c ->
    at_place root (TCursor c (off + list_sum (map width (firstn i ch))) (Frame k n ch i off :: st)).

(** What document order has left after the subtree the cursor stands on. *)
Fixpoint remaining (st : list frame) : list (green * nat) :=
  match st with
  | [] => []
  | Frame k n ch i off :: st' =>
      lay elements (off + list_sum (map width (firstn (S i) ch))) (skipn (S i) ch) ++ remaining st'
  end.
