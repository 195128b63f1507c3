(** Specification of the arena: ownership of memory. *)
From Verif Require Import Base ArenaModel.
Open Scope Z_scope.

Definition apart (x y : Z * Z) : Prop := fst x + snd x <= fst y \/ fst y + snd y <= fst x.
Definition inside (x y : Z * Z) : Prop := fst y <= fst x /\ fst x + snd x <= fst y + snd y.

(** The system allocator returns an aligned block away from null and from all blocks it has given out. *)
Definition fresh (w : world) (addr size : Z) : Prop :=
  ALIGN < addr /\ addr mod ALIGN = 0 /\ Forall (apart (addr, size)) (w_sys w).

(** Chunks of an arena, and what is held in the pools. *)
Definition chunks (a : arena) : list (Z * Z) :=
  (if a_start a =? DANGLING then [] else [(a_start a, a_end a - a_start a)]) ++ a_full a.
Definition chunks_of (o : option arena) : list (Z * Z) := match o with Some a => chunks a | None => [] end.
Definition in_use (w : world) : list (Z * Z) := flat_map chunks_of (w_arenas w).
Definition pooled (w : world) : list (Z * Z) := flat_map (map (fun p => (p, CHUNK_SIZE))) (w_pools w).

(** Histories with the objects currently allocated (arena number, address, size); dropping an arena ends the
    life of its objects. *)
Inductive execution (threads : nat) : list (nat * Z * Z) -> world -> Prop :=
| XStart : execution threads [] (world_new threads)
| XNew objs w w' : execution threads objs w -> step w ENew = Some (None, w') -> execution threads objs w'
| XAlloc objs w w' t i size sys p : execution threads objs w -> 0 <= size ->
    fresh w sys (Z.max (size + ALIGN) CHUNK_SIZE) ->
    step w (EAlloc t i size sys) = Some (Some p, w') -> execution threads ((i, p, size) :: objs) w'
| XDrop objs w w' t i : execution threads objs w -> step w (EDrop t i) = Some (None, w') ->
    execution threads (filter (fun o => negb (Nat.eqb (fst (fst o)) i)) objs) w'
| XExit objs w t : execution threads objs w -> (t < threads)%nat -> execution threads objs (thread_exit w t).

Definition block (o : nat * Z * Z) : Z * Z := (snd (fst o), snd o).

(** Blocks the process holds but no longer knows. *)
Definition leaked (w : world) (b : Z * Z) : Prop := In b (w_sys w) /\ ~ In b (in_use w) /\ ~ In b (pooled w).
