(** Walks and cycles. *)
From Verif Require Import Base GraphModel.

(** One step along an edge; in an undirected graph, in either direction. *)
Definition step (g : graph) (a b : nat) : Prop := In (a, b) (gr_edges g) \/ (gr_directed g = false /\ In (b, a) (gr_edges g)).

Inductive walk (g : graph) : nat -> nat -> Prop :=
| WHere a : walk g a a
| WStep a b c : step g a b -> walk g b c -> walk g a c.

(** Consecutive nodes of the list are joined by edges. *)
Fixpoint chain (g : graph) (l : list nat) : Prop :=
  match l with
  | a :: ((b :: _) as r) => step g a b /\ chain g r
  | _ => True
  end.

(** A simple directed cycle, without repetition of its first node. *)
Definition cycle (g : graph) (c : list nat) : Prop := exists a r, c = a :: r /\ NoDup c /\ chain g (c ++ [a]).

(** Every edge joins nodes of the graph. *)
Definition closed (g : graph) : Prop := Forall (fun e => In (fst e) (gr_nodes g) /\ In (snd e) (gr_nodes g)) (gr_edges g).
