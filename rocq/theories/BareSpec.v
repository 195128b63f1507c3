(** What the parsers without nodes are compared with. *)
From Verif Require Import Base LexModel TreeModel.

(** How many bytes of the text the tokens take *)
Definition taken (ts : list token) : nat := list_sum (map (fun t => tk_end t - tk_start t) ts).
(** A token as a leaf *)
Definition as_leaf (t : token) (g : green) : Prop := g = GLeaf (tk_kind t) (tk_end t - tk_start t) None.

(** The tokens are some that do not count and then the rest, which starts with one that counts. *)
Definition leads (ign : nat -> bool) (ts lead rest : list token) : Prop :=
  ts = lead ++ rest /\ Forall (fun t => ign (tk_kind t) = true) lead /\ (forall t r, rest = t :: r -> ign (tk_kind t) = false).

(** The tokens of [ts], in order, that satisfy [p] *)
Inductive picked (p : token -> Prop) : list token -> list token -> Prop :=
| PickNil : picked p [] []
| PickIt t ts us : p t -> picked p ts us -> picked p (t :: ts) (t :: us)
| PickNot t ts us : ~ p t -> picked p ts us -> picked p (t :: ts) us.
